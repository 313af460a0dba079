(** Programs of the README's virtual machine. *)
From Verif Require Import Base ModelMem ModelEnc ModelSyntax ModelMacro SpecX86 SpecAsm SpecState SpecHist SpecMulti
  MemInv MemFinal MemHist MemRun SpecProg SpecMachine SpecCpu SpecHost MachLib MachImage ModelParse DemoText Fibo FiboRun FiboEnd SpecVm VmCode VmPlace VmEnd VmFits.
Local Notation length := List.length.
Local Open Scope list_scope.
Local Open Scope Z_scope.

(** The function of the README. *)
Definition fibV : vfun := mkFun 0 3 1 8
  [VGet 0 8; VInt 1 0; VCmp 0 1; VJne 1; VConst 0; VJmp 3; VMark 1; VInt 1 1; VCmp 0 1; VJne 2; VConst 1; VJmp 3; VMark 2;
   VGet 0 8; VInt 1 1; VSub 0 1; VCall 0 0 0; VGet 1 8; VInt 2 2; VSub 1 2; VCall 0 1 1; VAdd 0 1; VResult 0].
(** Two functions that call each other: is the argument even, is it odd. *)
Definition parity (name other mark end_ : nat) (v : Z) : vfun := mkFun name end_ 1 8
  [VGet 0 8; VInt 3 0; VCmp 0 3; VJne mark; VConst v; VJmp end_; VMark mark; VInt 1 1; VSub 0 1; VCall other 0 2; VResult 2].
Definition evenV : vfun := parity 0 1 2 3 1.
Definition oddV : vfun := parity 1 0 4 5 0.
(** x + .. + 1 in a loop with two variables. *)
Definition sumV : vfun := mkFun 6 8 2 8
  [VInt 0 0; VSet 0 16; VMark 7; VGet 0 8; VGet 1 16; VAdd 1 0; VSet 1 16; VInt 2 1; VSub 0 2; VSet 0 8; VJne 7; VResult 1].
Definition progV : list vfun := [evenV; oddV; sumV].

Ltac nodup := repeat (apply NoDup_cons; [cbn; intuition discriminate|]); apply NoDup_nil.
Ltac okf := split; [cbn; lia|split; [split; [cbn; lia|reflexivity]|]]; intros i Hi; cbn in Hi; repeat (destruct Hi as [<-|Hi]; [cbn; unfold reg_ok, var_ok; cbn; try (repeat split; try reflexivity; try lia; tauto); tauto|]); elim Hi.
Lemma fib_ok : vm_ok 4 [fibV].
Proof.
  split; [cbn; nodup|]. split; [cbn; intros l Hl; lia|]. intros f [<-|[]]. okf.
Qed.
Lemma prog_vm_ok : vm_ok 9 progV.
Proof.
  split; [cbn; nodup|]. split; [cbn; intros l Hl; lia|]. intros f [<-|[<-|[<-|[]]]]; okf.
Qed.
Lemma fib6 : returns [fibV] 384 fibV 6 8.
Proof. split; [vm_compute; discriminate|]. exists 400%nat. vm_compute. reflexivity. Qed.
Lemma even5 : returns progV 384 evenV 5 0 /\ returns progV 384 oddV 5 1.
Proof. split; (split; [vm_compute; discriminate|]; exists 200%nat; vm_compute; reflexivity). Qed.
(** The same bytes as the calls of the README give. *)
Lemma fib_same m : view (length fibo_image) (calls (vm_jit 4 [fibV]) (jit_new 0 m)) = view (length fibo_image) (run fibo_jit (jit_new 0 m)).
Proof. rewrite fibo_view. vm_compute. reflexivity. Qed.

(** ** Every sum *)
Fixpoint sum_to (n : nat) : Z := match n with O => 0 | S k => Z.of_nat n + sum_to k end.
Definition loopV : list vmi := [VGet 0 8; VGet 1 16; VAdd 1 0; VSet 1 16; VInt 2 1; VSub 0 2; VSet 0 8; VJne 7; VResult 1].
Lemma vrun_S fs hosts need n room f c st : vrun fs hosts need (S n) room f c st =
      let goto l := if Nat.eqb l (v_end f) then ended st else match find_mark l (v_body f) with Some c => vrun fs hosts need n room f c st | None => None end in
      match c with
      | [] => ended st
      | VInt k v :: c => vrun fs hosts need n room f c (set_reg k (u64 v) st)
      | VGet k o :: c => match v_loc st o with Some x => vrun fs hosts need n room f c (set_reg k x st) | None => None end
      | VSet k o :: c => match v_reg st k with Some x => vrun fs hosts need n room f c (set_loc o x st) | None => None end
      | VSub d s :: c =>
          match v_reg st d, v_reg st s with
          | Some x, Some y => vrun fs hosts need n room f c (set_eq (Some (u64 (x - y) =? 0)) (set_reg d (u64 (x - y)) st))
          | _, _ => None
          end
      | VAdd d s :: c =>
          match v_reg st d, v_reg st s with
          | Some x, Some y => vrun fs hosts need n room f c (set_eq (Some (u64 (x + y) =? 0)) (set_reg d (u64 (x + y)) st))
          | _, _ => None
          end
      | VCmp d s :: c =>
          match v_reg st d, v_reg st s with Some x, Some y => vrun fs hosts need n room f c (set_eq (Some (x =? y)) st) | _, _ => None end
      | VJne l :: c => match v_eq st with Some true => vrun fs hosts need n room f c st | Some false => goto l | None => None end
      | VJmp l :: _ => goto l
      | VMark _ :: c => vrun fs hosts need n room f c st
      | VCall g a r :: c =>
          match find_fun fs g, v_reg st a with
          | Some h, Some x =>
              let room' := room - frame f in
              match (if frame h <=? room' then vrun fs hosts need n room' h (v_body h) (start h x) else None) with
              | Some (out, y) => seen out (vrun fs hosts need n room f c (set_eq None (set_res y (set_reg r y st))))
              | None => None
              end
          | _, _ => None
          end
      | VConst v :: c => vrun fs hosts need n room f c (set_res (u64 v) st)
      | VResult k :: c => match v_reg st k with Some x => vrun fs hosts need n room f c (set_res x st) | None => None end
      | VPuts k p :: c =>
          match v_reg st k with
          | Some x => if hosts (u64 p) && (need <=? room - frame f) then seen [(u64 p, x)] (vrun fs hosts need n room f c (forget st)) else None
          | None => None
          end
      end.
Proof. reflexivity. Qed.
Ltac st1 := rewrite vrun_S; cbv zeta; cbn [set_reg set_loc set_eq set_res forget v_reg v_loc v_res v_eq put ended Z.eqb Pos.eqb].
Lemma sum_loop fs : forall n st acc, Z.of_nat (S n) < 2 ^ 64 -> v_loc st 8 = Some (Z.of_nat (S n)) -> v_loc st 16 = Some (u64 acc) ->
  forall room, vrun fs (fun _ => false) 0 (8 * n + 10) room sumV loopV st = Some ([], u64 (acc + sum_to (S n))).
Proof.
  induction n as [|n IH]; intros st acc Hn H8 H16 room; unfold loopV.
  - change (8 * 0 + 10)%nat with 10%nat. st1. rewrite H8. st1. rewrite H16. do 6 st1. change (u64 (Z.of_nat 1 - u64 1) =? 0) with true. cbv iota. do 2 st1. f_equal.
    change (Z.of_nat 1) with 1. change (sum_to 1) with 1. unfold u64. rewrite Zplus_mod_idemp_l. reflexivity.
  - replace (8 * S n + 10)%nat with (8 + (8 * n + 10))%nat by lia. set (q := (8 * n + 10)%nat) in *. cbn [Nat.add]. st1. rewrite H8. st1. rewrite H16. do 6 st1.
    assert (E : u64 (Z.of_nat (S (S n)) - u64 1) = Z.of_nat (S n)) by (change (u64 1) with 1; unfold u64; rewrite Z.mod_small; lia). rewrite E.
    replace (Z.of_nat (S n) =? 0) with false by (symmetry; apply Z.eqb_neq; lia). cbv iota. cbn [Nat.eqb v_end sumV]. cbn [find_mark v_body sumV Nat.eqb]. fold loopV.
    rewrite (IH _ (acc + Z.of_nat (S (S n)))); [|lia|reflexivity|cbn; f_equal; unfold u64; rewrite Zplus_mod_idemp_l; reflexivity].
    f_equal. f_equal. f_equal. cbn [sum_to]. lia.
Qed.
Lemma sum_returns fs n : (0 < n)%nat -> Z.of_nat n < 2 ^ 64 -> returns fs 64 sumV (Z.of_nat n) (u64 (sum_to n)).
Proof.
  intros H0 Hn. destruct n as [|n]; [lia|]. split; [vm_compute; discriminate|]. exists (S (S (S (8 * n + 10)))). unfold sumV at 2. cbn [v_body]. do 3 st1.
  fold loopV.
  rewrite (sum_loop fs n _ 0 Hn); reflexivity.
Qed.
(** On the processor. *)
Lemma sum_machine b m : 0 <= b -> b + PAGE_SIZE < 2 ^ 64 -> exists s4 a, calls (vm_jit 9 progV) (jit_new b m) = Some s4 /\ label_addr s4 6%nat = Some a /\
  forall n st sp, (0 < n)%nat -> wf st -> holds (mem s4) b (b + PAGE_SIZE) st -> regs st 7 = Z.of_nat n -> regs st 4 = sp -> 64 <= sp -> sp + 8 <= 2 ^ 64 ->
    b + PAGE_SIZE <= sp - 64 \/ sp <= b ->
    exists k st', cpu k a st = Some (quad (mm st) sp, st') /\ regs st' 0 = u64 (sum_to n).
Proof.
  intros Hb Ht. destruct (vm_accepted 9 progV b m prog_vm_ok ltac:(vm_compute; discriminate)) as [s4 E]. exists s4.
  assert (C : cursor s4 <= PAGE_SIZE).
  { assert (R : reached s4).
    { apply (reached_run (vm_jit 9 progV) (jit_new b m)); [constructor|vm_compute; reflexivity|apply calls_run, E]. }
    apply (ri_cnt _ (iv_r _ (Inv_reached _ R))). }
  destruct (vm_correct 9 progV b m s4 prog_vm_ok E Hb ltac:(lia) sumV) as (a & La & H); [right; right; left; reflexivity|].
  exists a. split; [exact E|]. split; [exact La|]. intros n st sp Hn W Hh H7 H4 H1 H2 Hd.
  destruct (H 64 (Z.of_nat n) (u64 (sum_to n)) st sp) as (k & st' & Hc & H0 & _); try assumption; try lia.
  - apply sum_returns; [exact Hn|]. rewrite <- H7. apply W. lia.
  - intros x Hx. apply Hh. lia.
  - exists k, st'. split; assumption.
Qed.

(** ** Calls of functions outside *)
(** Prints x, x - 1, .., 1 and calls itself for the rest; the function outside is at address 0x7fff_0000_1230. *)
Definition putint : Z := 0x7fff00001230.
Definition downV : vfun := mkFun 0 2 1 8
  [VGet 0 8; VInt 1 0; VCmp 0 1; VJne 1; VConst 7; VJmp 2; VMark 1; VPuts 0 putint; VInt 1 1; VSub 0 1; VCall 0 0 2; VResult 2].
Lemma down_ok : vm_ok 3 [downV].
Proof.
  split; [cbn; nodup|]. split; [cbn; intros l Hl; lia|]. intros f [<-|[]]. okf.
Qed.
Fixpoint down (n : nat) : list (Z * Z) := match n with O => [] | S k => (putint, Z.of_nat n) :: down k end.
(** The function outside: it counts its calls in memory of its own and destroys what it may. *)
Definition counter : host := mkHost (fun p => p =? putint) (fun out p st =>
  Some (mkMach (fun i => if (i =? 4) then u64 (regs st 4 + 8) else if (i =? 3) || (i =? 5) || (12 <=? i) then regs st i else 0xdead) (fun _ => 0) (mkFlags None None None None None)
    (fun y => if y =? 4096 then (mm st 4096 + 1) mod 256 else if (regs st 4 - 1000 <=? y) && (y <? regs st 4) then 0xcc else mm st y))) 1000 (fun y => y = 4096).
Lemma counter_abi : abi counter.
Proof.
  intros out p st Hp (W & Wx & Wm) Al Hn Ht. cbn [counter h_at h_serve h_need h_own] in *. eexists. split; [reflexivity|]. cbn [regs xmms mm]. split; [|split; [reflexivity|split]].
  - split; [|split; cbn [regs xmms mm]].
    + intros n Hi. cbn [regs]. destruct (n =? 4); [apply Z.mod_pos_bound; reflexivity|]. destruct (_ || _); [apply W, Hi|lia].
    + intros n Hi. lia.
    + intro y. destruct (y =? 4096); [apply Z.mod_pos_bound; reflexivity|]. destruct (_ && _); [lia|apply Wm].
  - intros i Hi. unfold saved in Hi. destruct (i =? 4) eqn:E4; [lia|]. destruct (_ || _) eqn:E; [reflexivity|]. lia.
  - intros y Ho Hs. destruct (y =? 4096) eqn:E; [lia|]. destruct (_ && _) eqn:E'; [lia|reflexivity].
Qed.
Lemma down_start x room n hosts need : vrun [downV] hosts need (S (S (S (S n)))) room downV (v_body downV) (start downV x) =
  if x =? 0 then vrun [downV] hosts need n room downV [VConst 7; VJmp 2; VMark 1; VPuts 0 putint; VInt 1 1; VSub 0 1; VCall 0 0 2; VResult 2] (mkVst (put (put (fun _ => None) 0 x) 1 0) (put (fun _ => None) 8 x) None (Some true))
  else vrun [downV] hosts need n room downV [VPuts 0 putint; VInt 1 1; VSub 0 1; VCall 0 0 2; VResult 2] (mkVst (put (put (fun _ => None) 0 x) 1 0) (put (fun _ => None) 8 x) None (Some false)).
Proof.
  change (v_body downV) with [VGet 0 8; VInt 1 0; VCmp 0 1; VJne 1; VConst 7; VJmp 2; VMark 1; VPuts 0 putint; VInt 1 1; VSub 0 1; VCall 0 0 2; VResult 2].
  rewrite vrun_S. cbv zeta. change (v_loc (start downV x) 8) with (Some x). cbv iota. change (set_reg 0 x (start downV x)) with (mkVst (put (fun _ => None) 0 x) (put (fun _ => None) 8 x) None None). st1. change (u64 0) with 0. st1. st1. destruct (x =? 0); reflexivity.
Qed.
Lemma down_runs : forall n room, Z.of_nat n < 2 ^ 64 -> 64 * Z.of_nat n + 1064 <= room ->
  vrun [downV] (h_at counter) 1000 (8 * n + 10) room downV (v_body downV) (start downV (Z.of_nat n)) = Some (down n, 7).
Proof.
  induction n as [|n IH]; intros room Hn Hr.
  - vm_compute. reflexivity.
  - replace (8 * S n + 10)%nat with (8 + (8 * n + 10))%nat by lia. cbn [Nat.add]. rewrite down_start. replace (Z.of_nat (S n) =? 0) with false by (symmetry; apply Z.eqb_neq; lia).
    st1. change (u64 putint) with putint. change (h_at counter putint) with true. change (frame downV) with 64. cbn [andb]. replace (1000 <=? room - 64) with true by lia.
    cbn [down]. cbn [forget v_reg v_loc]. do 3 st1. change (find_fun [downV] 0) with (Some downV). cbv iota. change (frame downV) with 64.
    replace (64 <=? room - 64) with true by lia.
    replace (u64 (Z.of_nat (S n) - u64 1)) with (Z.of_nat n) by (change (u64 1) with 1; unfold u64; rewrite Z.mod_small; lia).
    rewrite IH by lia. replace (8 * n + 10)%nat with (S (S (8 * n + 8))) by lia. do 2 st1. cbn [seen]. rewrite app_nil_r. reflexivity.
Qed.
Lemma down_prints n room : Z.of_nat n < 2 ^ 64 -> 64 * Z.of_nat n + 1064 <= room -> prints [downV] (h_at counter) (h_need counter) room downV (Z.of_nat n) (down n) 7.
Proof. intros Hn Hr. split; [change (frame downV) with 64; lia|]. exists (8 * n + 10)%nat. apply down_runs; assumption. Qed.
