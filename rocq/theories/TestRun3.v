(** What the functions of monoasm/tests compute: floating point; where divl.rs faults. *)
From Verif Require Import Base ModelMem ModelEnc ModelSyntax ModelMacro SpecX86 SpecAsm SpecState SpecHist SpecProg ModelParse DemoText
  EncDec Emit Trace MemInv SpecFP SpecMachine SpecCpu MachLib MachImage Fibo FiboRun TestProgs TestRun TestRun2.
Local Notation length := List.length.
Local Open Scope list_scope.
Local Open Scope Z_scope.

(** ** cvttsd2si: the 32-bit conversion *)
Definition i_cvttsd2si : list Z := Eval vm_compute in code_of 5 t_cvttsd2si.
Lemma a_cvttsd2si : all_at i_cvttsd2si. Proof. all_at_tac. Qed.
Lemma f_cvttsd2si : computes t_cvttsd2si 5 0 0 (fun _ => True) (fun st st' => regs st' 0 = u32 (f64_to_int 32 (lo64 (xmms st 0)))).
Proof. start i_cvttsd2si. sx a_cvttsd2si. fin a_cvttsd2si. Qed.
(** Right if and only if the value, cut off, is from 0 to 2^31. *)
Lemma to_int_32 v : u32 (f64_to_int 32 v) = u64 (f64_to_int 64 v) <-> 0 <= f64_to_int 64 v <= 2 ^ 31.
Proof.
  unfold f64_to_int, u32, u64. change (2 ^ 32) with 4294967296. change (2 ^ 64) with 18446744073709551616.
  change (2 ^ (64 - 1)) with 9223372036854775808. change (2 ^ (32 - 1)) with 2147483648. change (2 ^ 31) with 2147483648.
  change (- (9223372036854775808)) with (-9223372036854775808). change (- (2147483648)) with (-2147483648).
  destruct (int_of Chop v) as [k|].
  - destruct (Z.leb_spec (-9223372036854775808) k); destruct (Z.ltb_spec k 9223372036854775808); cbn [andb].
    2-4: destruct (Z.leb_spec (-2147483648) k); destruct (Z.ltb_spec k 2147483648); cbn [andb]; try lia;
      (change (-2147483648 mod 4294967296) with 2147483648; change (-9223372036854775808 mod 18446744073709551616) with 9223372036854775808; lia).
    destruct (Z.leb_spec (-2147483648) k); destruct (Z.ltb_spec k 2147483648); cbn [andb]; try lia.
  - change (-2147483648 mod 4294967296) with 2147483648. change (-9223372036854775808 mod 18446744073709551616) with 9223372036854775808. lia.
Qed.
Lemma f_cvttsd2si_right : computes t_cvttsd2si 5 0 0 (fun st => 0 <= f64_to_int 64 (lo64 (xmms st 0)) <= 2 ^ 31)
  (fun st st' => regs st' 0 = u64 (f64_to_int 64 (lo64 (xmms st 0)))).
Proof.
  intros b m Hb Ht. destruct (f_cvttsd2si b m Hb Ht) as (s & E & L & H). exists s. split; [exact E|]. split; [exact L|].
  intros st W Hh Hs1 Hs2 Hp. destruct (H st W Hh Hs1 Hs2 Logic.I) as (k & st' & C & G4 & Gs & Gm & G). exists k, st'.
  split; [exact C|]. split; [exact G4|]. split; [exact Gs|]. split; [exact Gm|]. rewrite G. apply to_int_32, Hp.
Qed.

(** ** roundpd *)
Definition i_roundpd : list Z := Eval vm_compute in code_of 7 t_roundpd.
Lemma a_roundpd : all_at i_roundpd. Proof. all_at_tac. Qed.
Lemma f_roundpd : computes t_roundpd 7 0 0 (fun _ => True) (fun st st' => xmms st' 0 = pair64 (f64_round 2 (hi64 (xmms st 0))) (f64_round 2 (lo64 (xmms st 0)))).
Proof. start i_roundpd. sx a_roundpd. fin a_roundpd. Qed.

(** ** minsd, maxsd *)
Section Instr.
Variables (next : Z) (R X : Z -> Z) (F : flags) (M : Z -> Z).
Notation st := (mkMach R X F M).
Lemma x_storex_ix r i c k s a v : u64 (R r + R i * c + k) = a -> a + 8 <= 2 ^ 64 -> X s = v ->
  x86 (mkIns MovX W64 [OMem (mkMem (Some (BReg r)) (Some (i, c)) k); OXmm s]) next st = Some (mkMach R X F (poke M a (le 8 v)), Fall).
Proof.
  intros Ha H <-. cbn [x86 i_mnem i_ops i_width get obind put regs size xmms]. unfold ea. cbn [m_base m_index m_disp]. rewrite Ha, (store_quad _ _ _ _ _ _ H), le_trunc. reflexivity.
Qed.
Lemma x_fp_ix f d r i c k a v q : u64 (R r + R i * c + k) = a -> a + 8 <= 2 ^ 64 -> quad M a = v -> do_fp f (lo64 (X d)) v = Some q ->
  x86 (mkIns (Fp f SD) W64 [OXmm d; OMem (mkMem (Some (BReg r)) (Some (i, c)) k)]) next st = Some (mkMach R (upd X d (X d - lo64 (X d) + lo64 q)) F M, Fall).
Proof.
  intros Ha H Hv Hq. destruct f; try discriminate Hq; cbn [x86 i_mnem i_ops i_width get_xm get obind put regs size xmms]; unfold ea; cbn [m_base m_index m_disp];
  rewrite Ha, (load_quad _ _ _ _ _ _ H Hv); cbn [obind]; rewrite Hq; reflexivity.
Qed.
End Instr.
Lemma lo64_mod q v : lo64 (v - lo64 v + lo64 q) = lo64 q.
Proof.
  unfold lo64. pose proof (Z_div_mod_eq_full v (2 ^ 64)). replace (v - v mod 2 ^ 64 + q mod 2 ^ 64) with (q mod 2 ^ 64 + (v / 2 ^ 64) * 2 ^ 64) by lia.
  rewrite Z_mod_plus_full. apply Z.mod_mod. discriminate.
Qed.
Lemma lo64_bound v : 0 <= lo64 v < 2 ^ 64. Proof. apply Z.mod_pos_bound. reflexivity. Qed.
Lemma lo64_id v : 0 <= v < 2 ^ 64 -> lo64 v = v. Proof. apply Z.mod_small. Qed.

Definition i_minmaxsd : list Z := Eval vm_compute in code_of 60 t_minmaxsd.
Lemma a_minmaxsd : all_at i_minmaxsd. Proof. all_at_tac. Qed.
Lemma f_minsd : computes_at t_minmaxsd 0%nat 0 60 (2 * PAGE_SIZE + 20) (2 * PAGE_SIZE + 28) (fun _ => True)
  (fun st st' => lo64 (xmms st' 0) = f64_min (lo64 (xmms st 0)) (lo64 (xmms st 1))).
Proof. start i_minmaxsd. change PAGE_SIZE with 268435456 in *.
  sl a_minmaxsd (x_lea _ _ _ _ _ 6 _ (b + 536870912)); [unfold u64; rewrite Z.mod_small by lia; lia|].
  sl a_minmaxsd (x_mov_ri _ _ _ _ _ 1 8); [unfold word; lia|].
  sl a_minmaxsd (x_storex_ix _ _ _ _ _ 6 1 2 4 1 (b + 536870932) (X 1)); [rg; unfold u64; rewrite Z.mod_small by lia; lia|lia|rg|].
  match goal with |- context [poke M ?a ?l] => set (M1 := poke M a l) end.
  assert (Hi1 : img_in i_minmaxsd b M1) by (apply img_poke; [exact Hi|rewrite le_length; change (Z.of_nat (length i_minmaxsd)) with 60; lia]).
  assert (Q1 : quad M1 (b + 536870932) = lo64 (X 1)) by (unfold M1; rewrite quad_same; reflexivity).
  assert (Qr : quad M1 (R 4) = quad M (R 4)) by (apply quad_other; lia).
  assert (Ho : forall x, ~ (b + 536870932 <= x < b + 536870940) -> M1 x = M x) by (intros x Hx; apply poke_out; rewrite le_length; lia).
  clearbody M1.
  sl a_minmaxsd (x_fp_ix _ _ _ _ _ _ 0 6 1 2 4 (b + 536870932) (lo64 (X 1)) (f64_min (lo64 (X 0)) (lo64 (X 1)))); [rg; unfold u64; rewrite Z.mod_small by lia; lia|lia|exact Q1|reflexivity|].
  sl a_minmaxsd (x_ret _ _ _ _ _ (R 4) _); [reflexivity|assumption|exact Qr|].
  apply runs_now. cbn [regs xmms mm]. split; [reflexivity|]. split; [reflexivity|].
  (split; [intros ? [-> | [-> | [-> | [-> | [-> | ->]]]]]; reflexivity|]). split; [intros x Hx; apply Ho; lia|]. rg.
  rewrite lo64_mod. apply lo64_id. unfold f64_min. destruct (f64_lt _ _); apply lo64_bound. Qed.
Lemma f_maxsd : computes_at t_minmaxsd 1%nat 30 60 (2 * PAGE_SIZE + 20) (2 * PAGE_SIZE + 28) (fun _ => True)
  (fun st st' => lo64 (xmms st' 0) = f64_max (lo64 (xmms st 0)) (lo64 (xmms st 1))).
Proof. start i_minmaxsd. change PAGE_SIZE with 268435456 in *.
  sl a_minmaxsd (x_lea _ _ _ _ _ 6 _ (b + 536870912)); [unfold u64; rewrite Z.mod_small by lia; lia|].
  sl a_minmaxsd (x_mov_ri _ _ _ _ _ 1 8); [unfold word; lia|].
  sl a_minmaxsd (x_storex_ix _ _ _ _ _ 6 1 2 4 1 (b + 536870932) (X 1)); [rg; unfold u64; rewrite Z.mod_small by lia; lia|lia|rg|].
  match goal with |- context [poke M ?a ?l] => set (M1 := poke M a l) end.
  assert (Hi1 : img_in i_minmaxsd b M1) by (apply img_poke; [exact Hi|rewrite le_length; change (Z.of_nat (length i_minmaxsd)) with 60; lia]).
  assert (Q1 : quad M1 (b + 536870932) = lo64 (X 1)) by (unfold M1; rewrite quad_same; reflexivity).
  assert (Qr : quad M1 (R 4) = quad M (R 4)) by (apply quad_other; lia).
  assert (Ho : forall x, ~ (b + 536870932 <= x < b + 536870940) -> M1 x = M x) by (intros x Hx; apply poke_out; rewrite le_length; lia).
  clearbody M1.
  sl a_minmaxsd (x_fp_ix _ _ _ _ _ _ 0 6 1 2 4 (b + 536870932) (lo64 (X 1)) (f64_max (lo64 (X 0)) (lo64 (X 1)))); [rg; unfold u64; rewrite Z.mod_small by lia; lia|lia|exact Q1|reflexivity|].
  sl a_minmaxsd (x_ret _ _ _ _ _ (R 4) _); [reflexivity|assumption|exact Qr|].
  apply runs_now. cbn [regs xmms mm]. split; [reflexivity|]. split; [reflexivity|].
  (split; [intros ? [-> | [-> | [-> | [-> | [-> | ->]]]]]; reflexivity|]). split; [intros x Hx; apply Ho; lia|]. rg.
  rewrite lo64_mod. apply lo64_id. unfold f64_max. destruct (f64_lt _ _); apply lo64_bound. Qed.

(** ** Counterexamples: the code at 4096, rsp = 2^40, no instruction starts with the byte 6 *)
Definition stT (r x : Z -> Z) (img : list Z) : mach :=
  mkMach (upd r 4 (2 ^ 40)) x no_flags (fun a => if (4096 <=? a) && (a <? 4096 + Z.of_nat (length img)) then nth (Z.to_nat (a - 4096)) img 0 else 6).
Lemma cpu_none : forall k n pc st, cpu k pc st = None -> (k <= n)%nat -> cpu n pc st = None.
Proof.
  induction k as [|k IH]; intros n pc st H L; [discriminate H|]. destruct n as [|n]; [lia|]. rewrite cpu_S in *.
  destruct (cpu_step pc st) as [[pc1 st1]|]; [|reflexivity]. apply (IH n); [exact H|lia].
Qed.
Lemma computes_not ops img d0 d1 (pre : mach -> Prop) post r x k : forallb relocatable ops = true -> Z.of_nat (length img) <= PAGE_SIZE ->
  (forall m, view (length img) (run ops (jit_new 0 m)) = Some (img, Some (P0, 0))) -> forallb (fun v => (0 <=? v) && (v <? 256)) img = true ->
  (forall i, 0 <= i < 16 -> 0 <= r i < 2 ^ 64) -> (forall i, 0 <= i < 16 -> 0 <= x i < 2 ^ 128) ->
  pre (stT r x img) -> cpu k 4096 (stT r x img) = None ->
  (forall n st', (n < k)%nat -> cpu n 4096 (stT r x img) = Some (quad (mm (stT r x img)) (2 ^ 40), st') -> ~ post (stT r x img) st') ->
  ~ computes ops (Z.of_nat (length img)) d0 d1 pre post.
Proof.
  intros R L V B Hr Hx Hp Hk Hn C. destruct (image_at ops img R L V 4096 (fun _ => 6)) as (s & E & _ & Hi).
  destruct (C 4096 (fun _ => 6)) as (s' & E' & _ & H); [lia|discriminate|]. assert (s' = s) by congruence. subst s'.
  destruct (H (stT r x img)) as (n & st' & Cn & _ & _ & _ & P).
  - split; [|split].
    + intros i Hi'. unfold stT. cbn [regs]. unfold upd. destruct (i =? 4); [lia|apply Hr, Hi'].
    + exact Hx.
    + intro a. cbn [stT mm]. destruct ((4096 <=? a) && (a <? 4096 + Z.of_nat (length img))) eqn:D; [|lia].
      apply andb_true_iff in D. destruct D as [D1 D2]. apply Z.leb_le in D1. apply Z.ltb_lt in D2.
      pose proof (proj1 (forallb_forall _ _) B (nth (Z.to_nat (a - 4096)) img 0) ltac:(apply nth_In; lia)) as G. cbn beta in G. lia.
  - intros y Hy. cbn [stT mm]. destruct ((4096 <=? y) && (y <? 4096 + Z.of_nat (length img))) eqn:D; [|lia].
    specialize (Hi (y - 4096) ltac:(lia)). replace (4096 + (y - 4096)) with y in Hi by lia. symmetry. exact Hi.
  - right. vm_compute. discriminate.
  - vm_compute. discriminate.
  - exact Hp.
  - change (4096 + 0) with 4096 in Cn. destruct (Nat.lt_ge_cases n k) as [Ln|Ln].
    + exact (Hn n st' Ln Cn P).
    + rewrite (cpu_none k n _ _ Hk Ln) in Cn. discriminate Cn.
Qed.
(** -1.0 *)
Lemma cvttsd2si_wrong : ~ computes t_cvttsd2si 5 0 0 (fun _ => True) (fun st st' => regs st' 0 = u64 (f64_to_int 64 (lo64 (xmms st 0)))).
Proof.
  apply (computes_not t_cvttsd2si i_cvttsd2si 0 0 _ _ (fun _ => 0) (fun _ => 0xbff0000000000000) 3);
    [vm_compute; reflexivity|vm_compute; discriminate|intro; vm_compute; reflexivity|reflexivity|lia|lia|exact Logic.I|vm_compute; reflexivity|].
  intros n st' L H P. destruct n as [|[|[|n]]]; [| | |lia].
  - apply (f_equal (option_map fst)) in H. vm_compute in H. discriminate H.
  - apply (f_equal (option_map fst)) in H. vm_compute in H. discriminate H.
  - apply (f_equal (option_map (fun q => regs (snd q) 0))) in H. cbn [option_map snd] in H. rewrite P in H. vm_compute in H. discriminate H.
Qed.
(** 2^31 / 1 *)
Lemma divl_wrong : ~ computes t_divl 19 0 0 (fun st => u32 (regs st 6) <> 0)
  (fun st st' => regs st' 0 = u32 (regs st 7) / u32 (regs st 6) /\ regs st' 2 = u32 (regs st 7) mod u32 (regs st 6)).
Proof.
  apply (computes_not t_divl i_divl 0 0 _ _ (fun i => if i =? 7 then 2 ^ 31 else 1) (fun _ => 0) 5);
    [vm_compute; reflexivity|vm_compute; discriminate|intro; vm_compute; reflexivity|reflexivity|intros i _; destruct (i =? 7); lia|lia|vm_compute; discriminate|vm_compute; reflexivity|].
  intros n st' L H. exfalso. do 5 (destruct n as [|n]; [apply (f_equal (option_map fst)) in H; vm_compute in H; discriminate H|]). lia.
Qed.
