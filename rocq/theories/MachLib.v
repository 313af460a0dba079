(** Running code whose bytes are known: fetching from an image, loads after stores, and
    the effect of the instructions the examples use. *)
From Verif Require Import Base ModelMem ModelEnc ModelSyntax ModelMacro SpecX86 SpecAsm SpecState SpecHist
  EncDec Emit Trace MemInv SpecProg SpecMachine SpecCpu.
Local Notation length := List.length.
Local Open Scope list_scope.
Local Open Scope Z_scope.

(** ** Running *)
(** Some number of steps from [pc], [st] leads to a state that satisfies [Q]. *)
Definition runs (pc : Z) (st : mach) (Q : Z -> mach -> Prop) : Prop := exists k pc' st', cpu k pc st = Some (pc', st') /\ Q pc' st'.
Lemma cpu_S n pc st : cpu (S n) pc st = match cpu_step pc st with Some (pc', st') => cpu n pc' st' | None => None end.
Proof. reflexivity. Qed.
Lemma runs_now pc st (Q : Z -> mach -> Prop) : Q pc st -> runs pc st Q.
Proof. intro H. exists O, pc, st. split; [reflexivity|exact H]. Qed.
Lemma runs_step pc st pc1 st1 Q : cpu_step pc st = Some (pc1, st1) -> runs pc1 st1 Q -> runs pc st Q.
Proof. intros E (k & pc' & st' & C & H). exists (S k), pc', st'. split; [rewrite cpu_S, E; exact C|exact H]. Qed.
Lemma cpu_plus : forall a b pc st pc1 st1, cpu a pc st = Some (pc1, st1) -> cpu (a + b) pc st = cpu b pc1 st1.
Proof.
  induction a as [|a IH]; intros b pc st pc1 st1 H; [inversion H; reflexivity|]. cbn [Nat.add]. rewrite cpu_S in *.
  destruct (cpu_step pc st) as [[pc2 st2]|]; [|discriminate]. eapply IH, H.
Qed.
Lemma runs_seq pc st Q Q' : runs pc st Q -> (forall pc' st', Q pc' st' -> runs pc' st' Q') -> runs pc st Q'.
Proof.
  intros (k & pc1 & st1 & C & H) F. destruct (F _ _ H) as (k2 & pc2 & st2 & C2 & H2).
  exists (k + k2)%nat, pc2, st2. split; [rewrite (cpu_plus _ _ _ _ _ _ C); exact C2|exact H2].
Qed.
Lemma runs_imp pc st (Q Q' : Z -> mach -> Prop) : runs pc st Q -> (forall pc' st', Q pc' st' -> Q' pc' st') -> runs pc st Q'.
Proof. intros H F. apply (runs_seq _ _ _ _ H). intros. apply runs_now. auto. Qed.

(** ** Fetching *)
Definition img_in (img : list Z) (b : Z) (m : Z -> Z) : Prop := forall i, 0 <= i < Z.of_nat (length img) -> m (b + i) = nth (Z.to_nat i) img 0.
(** The instruction at offset [k] of the image is [x], of [n] bytes. *)
Definition insn_at (img : list Z) (k n : Z) (x : ins) : Prop :=
  0 <= k /\ 0 <= n <= 15 /\ k + n <= Z.of_nat (length img) /\
  forall rest, decode (firstn (Z.to_nat n) (skipn (Z.to_nat k) img) ++ rest) = Some (x, rest).
Definition after_ins (x : ins) (next : Z) (r : option (mach * ctl)) : option (Z * mach) :=
  match r with
  | None => None
  | Some (st', Fall) => Some (next, st')
  | Some (st', Taken) => match rel_of x with Some d => Some (next + d, st') | None => None end
  | Some (st', Jump a) => Some (a, st')
  end.
Lemma img_read img b m : img_in img b m -> forall n k, 0 <= k -> k + Z.of_nat n <= Z.of_nat (length img) -> read m (b + k) n = firstn n (skipn (Z.to_nat k) img).
Proof.
  intros H. induction n as [|n IH]; intros k Hk Hn; [reflexivity|]. cbn [read]. rewrite (H k) by lia.
  replace (b + k + 1) with (b + (k + 1)) by lia. rewrite IH by lia. replace (Z.to_nat (k + 1)) with (S (Z.to_nat k)) by lia.
  assert (L : (Z.to_nat k < length img)%nat) by lia. clear -L. revert L. generalize (Z.to_nat k). induction img as [|x img IHi]; intros j L; [cbn in L; lia|].
  destruct j as [|j]; [reflexivity|]. cbn [skipn nth]. apply IHi. cbn [List.length] in L. lia.
Qed.
Lemma step_at img b k n x st : img_in img b (mm st) -> insn_at img k n x -> cpu_step (b + k) st = after_ins x (b + k + n) (x86 x (b + k + n) st).
Proof.
  intros Hi (Hk & Hn & Hl & Hd). unfold cpu_step, mstep.
  replace 15%nat with (Z.to_nat n + (15 - Z.to_nat n))%nat by lia. rewrite read_app.
  rewrite (img_read img b (mm st) Hi (Z.to_nat n) k Hk) by lia. rewrite Hd, read_length. cbv zeta.
  replace (b + k + (15 - Z.of_nat (15 - Z.to_nat n))) with (b + k + n) by lia. unfold after_ins.
  destruct (x86 x (b + k + n) st) as [[st' [| |a]]|]; reflexivity.
Qed.

(** ** Memory *)
Lemma poke_out : forall bs m a x, ~ (a <= x < a + Z.of_nat (length bs)) -> poke m a bs x = m x.
Proof.
  induction bs as [|v bs IH]; intros m a x H; [reflexivity|]. cbn [poke length] in *. rewrite IH by lia. unfold upd.
  destruct (x =? a) eqn:E; [lia|reflexivity].
Qed.
Lemma poke_in : forall bs m a i, (i < length bs)%nat -> poke m a bs (a + Z.of_nat i) = nth i bs 0.
Proof.
  induction bs as [|v bs IH]; intros m a i H; [cbn in H; lia|]. cbn [poke length] in *. destruct i as [|i].
  - rewrite poke_out by lia. unfold upd. replace (a + Z.of_nat 0) with a by lia. rewrite Z.eqb_refl. reflexivity.
  - replace (a + Z.of_nat (S i)) with (a + 1 + Z.of_nat i) by lia. cbn [nth]. apply IH. lia.
Qed.
Lemma read_poke bs m a : read (poke m a bs) a (length bs) = bs.
Proof. apply read_eq. intros. apply poke_in. assumption. Qed.
(** A quadword in memory. *)
Lemma quad_same m a v : quad (poke m a (le 8 v)) a = v mod 2 ^ 64.
Proof. unfold quad. rewrite <- (le_length 8 v) at 2. rewrite read_poke, unle_le. change (256 ^ Z.of_nat 8) with (2 ^ 64). reflexivity. Qed.
Lemma quad_other m a v x : x + 8 <= a \/ a + 8 <= x -> quad (poke m a (le 8 v)) x = quad m x.
Proof. intro H. unfold quad. f_equal. apply read_ext. intros y Hy. apply poke_out. rewrite le_length. lia. Qed.
Lemma quad_ext m m' a : (forall x, a <= x < a + 8 -> m x = m' x) -> quad m a = quad m' a.
Proof. intro H. unfold quad. f_equal. apply read_ext. intros. apply H. lia. Qed.
Lemma img_poke img b m a bs : img_in img b m -> a + Z.of_nat (length bs) <= b \/ b + Z.of_nat (length img) <= a -> img_in img b (poke m a bs).
Proof. intros H D i Hi. rewrite poke_out by lia. apply H, Hi. Qed.
Lemma img_ext img b m m' : img_in img b m -> (forall x, b <= x < b + Z.of_nat (length img) -> m' x = m x) -> img_in img b m'.
Proof. intros H E i Hi. rewrite E by lia. apply H, Hi. Qed.

(** ** Instructions *)
Definition word (v : Z) : Prop := 0 <= v < 2 ^ 64.
Lemma trunc_word v : word v -> trunc W64 v = v. Proof. intro H. apply Z.mod_small, H. Qed.
Lemma u64_word v : word v -> u64 v = v. Proof. intro H. apply Z.mod_small, H. Qed.
Lemma le_trunc v : le 8 (trunc W64 v) = le 8 v. Proof. apply le_mod. reflexivity. Qed.

Section Instructions.
Variables (next : Z) (R X : Z -> Z) (F : flags) (M : Z -> Z).
Notation st := (mkMach R X F M).
Lemma put_word d v : word v -> put_reg W64 d v st = mkMach (upd R d v) X F M.
Proof. intro H. unfold put_reg, set_regs. rewrite trunc_word by exact H. reflexivity. Qed.
Lemma load_quad a v : a + 8 <= 2 ^ 64 -> quad M a = v -> load 8 a st = Some v.
Proof. intros H <-. unfold load. destruct (_ <=? _) eqn:E; [reflexivity|lia]. Qed.
Lemma store_quad a v : a + 8 <= 2 ^ 64 -> store 8 a v st = Some (mkMach R X F (poke M a (le 8 v))).
Proof. intros H. unfold store. destruct (_ <=? _) eqn:E; [reflexivity|lia]. Qed.
Lemma ea_base r k a : R r + k = a -> word a -> ea R next (mkMem (Some (BReg r)) None k) = a.
Proof. intros <- H. unfold ea. cbn [m_base m_index m_disp]. rewrite Z.add_0_r. apply u64_word, H. Qed.

Lemma x_mov_rr d s v : R s = v -> word v -> x86 (mkIns Mov W64 [OReg W64 d; OReg W64 s]) next st = Some (mkMach (upd R d v) X F M, Fall).
Proof. intros <- H. cbn [x86 i_mnem i_ops i_width get obind put regs]. rewrite trunc_word, put_word by exact H. reflexivity. Qed.
Lemma x_mov_ri d v : word v -> x86 (mkIns Mov W64 [OReg W64 d; OImm v]) next st = Some (mkMach (upd R d v) X F M, Fall).
Proof. intro H. cbn [x86 i_mnem i_ops i_width get obind put regs]. rewrite trunc_word, put_word by exact H. reflexivity. Qed.
Lemma x_load d r k a v : R r + k = a -> word a -> a + 8 <= 2 ^ 64 -> quad M a = v -> word v ->
  x86 (mkIns Mov W64 [OReg W64 d; OMem (mkMem (Some (BReg r)) None k)]) next st = Some (mkMach (upd R d v) X F M, Fall).
Proof.
  intros Ha Wa H Hv Wv. cbn [x86 i_mnem i_ops i_width get obind put regs size]. rewrite (ea_base _ _ _ Ha Wa), (load_quad _ _ H Hv). cbn [obind].
  rewrite put_word by exact Wv. reflexivity.
Qed.
Lemma x_store r k s a v : R r + k = a -> word a -> a + 8 <= 2 ^ 64 -> R s = v ->
  x86 (mkIns Mov W64 [OMem (mkMem (Some (BReg r)) None k); OReg W64 s]) next st = Some (mkMach R X F (poke M a (le 8 v)), Fall).
Proof.
  intros Ha Wa H <-. cbn [x86 i_mnem i_ops i_width get obind put regs size]. rewrite (ea_base _ _ _ Ha Wa), (store_quad _ _ H), le_trunc. reflexivity.
Qed.
Lemma x_push s a v : R 4 - 8 = a -> 0 <= a -> a + 8 <= 2 ^ 64 -> R s = v ->
  x86 (mkIns Push W64 [OReg W64 s]) next st = Some (mkMach (upd R 4 a) X F (poke M a (le 8 v)), Fall).
Proof.
  intros Ha H1 H2 <-. cbn [x86 i_mnem i_ops i_width get obind put regs size]. unfold push, rsp. cbn [regs]. rewrite Ha. rewrite u64_word by (unfold word; lia).
  unfold set_regs. cbn [regs xmms fl mm]. unfold store. destruct (_ <=? _) eqn:E; [|lia]. unfold set_mm. cbn [regs xmms fl mm]. rewrite le_trunc. reflexivity.
Qed.
Lemma x_pop d a a' v : R 4 = a -> a + 8 <= 2 ^ 64 -> u64 (a + 8) = a' -> quad M a = v -> word v ->
  x86 (mkIns Pop W64 [OReg W64 d]) next st = Some (mkMach (upd (upd R 4 a') d v) X F M, Fall).
Proof.
  intros Ha H1 <- Hv Wv. cbn [x86 i_mnem i_ops i_width get obind put regs size]. unfold pop, rsp. cbn [regs]. rewrite Ha, (load_quad _ _ H1 Hv). cbn [obind fst snd].
  unfold put_reg, set_regs. cbn [regs xmms fl mm]. rewrite (trunc_word v Wv). reflexivity.
Qed.
Lemma x_ret a v : R 4 = a -> a + 8 <= 2 ^ 64 -> quad M a = v ->
  x86 (mkIns Ret W64 []) next st = Some (mkMach (upd R 4 (u64 (a + 8))) X F M, Jump v).
Proof.
  intros Ha H1 Hv. cbn [x86 i_mnem i_ops i_width]. unfold pop, rsp. cbn [regs]. rewrite Ha, (load_quad _ _ H1 Hv). reflexivity.
Qed.
Lemma x_call k a : R 4 - 8 = a -> 0 <= a -> a + 8 <= 2 ^ 64 ->
  x86 (mkIns Call W64 [ORel k]) next st = Some (mkMach (upd R 4 a) X F (poke M a (le 8 next)), Taken).
Proof.
  intros Ha H1 H2. cbn [x86 i_mnem i_ops i_width]. unfold push, rsp. cbn [regs]. rewrite Ha, u64_word by (unfold word; lia).
  unfold set_regs. cbn [regs xmms fl mm]. unfold store. destruct (_ <=? _) eqn:E; [|lia]. reflexivity.
Qed.
Lemma x_jmp k : x86 (mkIns Jmp W64 [ORel k]) next st = Some (st, Taken). Proof. reflexivity. Qed.
Lemma x_sub_rr d s a b c : R d = a -> R s = b -> word a -> word b -> u64 (a - b) = c ->
  x86 (mkIns (Alu SUB) W64 [OReg W64 d; OReg W64 s]) next st = Some (mkMach (upd R d c) X (snd (sub_with W64 a b 0)) M, Fall).
Proof.
  intros <- <- Wa Wb <-. cbn [x86 i_mnem i_ops i_width get obind put regs do_alu]. rewrite !trunc_word by assumption.
  unfold put_reg, set_regs, set_fl. cbn [sub_with fst snd regs xmms fl mm]. rewrite Z.sub_0_r. unfold trunc at 1. unfold trunc. rewrite Z.mod_mod by discriminate. reflexivity.
Qed.
Lemma x_sub_ri d v a c : R d = a -> word a -> word v -> u64 (a - v) = c ->
  x86 (mkIns (Alu SUB) W64 [OReg W64 d; OImm v]) next st = Some (mkMach (upd R d c) X (snd (sub_with W64 a v 0)) M, Fall).
Proof.
  intros <- Wa Wv <-. cbn [x86 i_mnem i_ops i_width get obind put regs do_alu]. rewrite !trunc_word by assumption.
  unfold put_reg, set_regs, set_fl. cbn [sub_with fst snd regs xmms fl mm]. rewrite Z.sub_0_r. unfold trunc. rewrite Z.mod_mod by discriminate. reflexivity.
Qed.
Lemma x_add_rr d s a b c : R d = a -> R s = b -> word a -> word b -> u64 (a + b) = c ->
  x86 (mkIns (Alu ADD) W64 [OReg W64 d; OReg W64 s]) next st = Some (mkMach (upd R d c) X (snd (add_with W64 a b 0)) M, Fall).
Proof.
  intros <- <- Wa Wb <-. cbn [x86 i_mnem i_ops i_width get obind put regs do_alu]. rewrite !trunc_word by assumption.
  unfold put_reg, set_regs, set_fl. cbn [add_with fst snd regs xmms fl mm]. rewrite Z.add_0_r. unfold trunc. rewrite Z.mod_mod by discriminate. reflexivity.
Qed.
Lemma x_cmp_rr d s a b : R d = a -> R s = b -> word a -> word b ->
  x86 (mkIns (Alu CMP) W64 [OReg W64 d; OReg W64 s]) next st = Some (mkMach R X (snd (sub_with W64 a b 0)) M, Fall).
Proof. intros <- <- Wa Wb. cbn [x86 i_mnem i_ops i_width get obind put regs do_alu]. rewrite !trunc_word by assumption. reflexivity. Qed.
End Instructions.
(** jne after a comparison. *)
Lemma x_jne next R X M a b k : word a -> word b ->
  x86 (mkIns (Jcc 5) W64 [ORel k]) next (mkMach R X (snd (sub_with W64 a b 0)) M) =
  Some (mkMach R X (snd (sub_with W64 a b 0)) M, if a =? b then Fall else Taken).
Proof.
  intros Wa Wb. cbn [x86 i_mnem i_ops i_width fl].
  change (SpecMachine.cond 5 (snd (sub_with W64 a b 0))) with (Some (negb (trunc W64 (a - b - 0) =? 0))). cbn [obind].
  replace (trunc W64 (a - b - 0) =? 0) with (a =? b); [destruct (a =? b); reflexivity|]. rewrite Z.sub_0_r.
  unfold trunc, word in *. change (2 ^ bits W64) with (2 ^ 64) in *. destruct (a =? b) eqn:E; symmetry.
  - apply Z.eqb_eq in E. subst. rewrite Z.sub_diag. reflexivity.
  - apply Z.eqb_neq. intro K. apply Z.eqb_neq in E. apply Z.mod_divide in K; [|lia]. destruct K as [q K]. nia.
Qed.
Lemma x_jne_fall next R X M a b k : word a -> word b -> a = b ->
  x86 (mkIns (Jcc 5) W64 [ORel k]) next (mkMach R X (snd (sub_with W64 a b 0)) M) = Some (mkMach R X (snd (sub_with W64 a b 0)) M, Fall).
Proof. intros Wa Wb E. rewrite (x_jne next R X M a b k Wa Wb), (proj2 (Z.eqb_eq a b) E). reflexivity. Qed.
Lemma x_jne_taken next R X M a b k : word a -> word b -> a <> b ->
  x86 (mkIns (Jcc 5) W64 [ORel k]) next (mkMach R X (snd (sub_with W64 a b 0)) M) = Some (mkMach R X (snd (sub_with W64 a b 0)) M, Taken).
Proof. intros Wa Wb E. rewrite (x_jne next R X M a b k Wa Wb), (proj2 (Z.eqb_neq a b) E). reflexivity. Qed.
