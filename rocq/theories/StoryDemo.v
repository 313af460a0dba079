(** A program that is given more code, and a jump patched, while it runs. *)
From Verif Require Import Base ModelMem ModelEnc ModelSyntax ModelMacro SpecX86 SpecAsm SpecTaken SpecState SpecHist MemRun MemDemo SpecProg SpecMachine SpecScope SpecMulti MultiDemo SpecLive LiveDemo SpecStory.
From Coq Require Import Lia.
Local Notation length := List.length.
Local Open Scope list_scope.
Local Open Scope Z_scope.

(** Other code writes a return address and calls the program at a. *)
Definition hostS (pc : Z) (st : mach) : Z * mach :=
  (65536, mkMach (fun i => if i =? 4 then 4096 else 0) (fun _ => 0) no_flags (fun x => if x =? 4097 then 18 else if (4096 <=? x) && (x <? 4104) then 0 else mm st x)).
Definition stA : mach := snd (hostS 0 (stL sL1)).
(** movq rax, 5; then, at b, it is interrupted: p: is assembled and b is patched to go there. *)
Definition wsA : list place_of := [(P0, [0; 0; 10; 10; 15; 15; 19; 20])].
Definition inside (r : presult mach) : spot := match r with PInside _ w _ => w | PGone _ _ a _ => Away a | PFaulted _ => Away 0 end.
Definition state (r : presult mach) : mach := match r with PInside _ _ st => st | PGone _ _ _ st => st | PFaulted _ => stA end.
Definition is_inside (r : presult mach) : bool := match r with PInside _ _ _ => true | _ => false end.
Lemma is_inside_eq r : is_inside r = true -> r = PInside mach (inside r) (state r). Proof. destruct r; [reflexivity|discriminate|discriminate]. Qed.
Definition runA (j : nat) (st : mach) : presult mach := prun mach x86 [blkL "c"] (final sL1) (marks_of sL1 wsA) j (At 0 1) st.
Definition stB : mach := state (runA 1 stA).
Definition sB : jit := the (run (hL2 ++ [OFinalize]) (seen stB sL1)).
Definition stC : mach := with_memory (mem sB) stB.
Definition sC : jit := the (after oL3 (seen stC sB)).
Definition stD : mach := with_memory (mem sC) stC.
Definition runD (j : nat) (st : mach) : presult mach := prun mach x86 [blkL "p"; blkM] (final sC) (marks_of sC placesL) j (At 0 3) st.

Lemma no_pending s : forallb (fun l => match targets l with [] => true | _ => false end) (labels s) = true -> forall p pos, ~ pending s p pos.
Proof.
  intros H p pos (l & t & Hi & _). unfold refs in Hi. destruct (nth_error (labels s) l) as [x|] eqn:E; [|exact Hi]. apply nth_error_In in E.
  rewrite forallb_forall in H. specialize (H x E). destruct (targets x); [exact Hi|discriminate].
Qed.
Lemma stB_mem : mm stB = mm stA.
Proof.
  assert (G : forall m, mm (state (runA 1 (mkMach (fun i => if i =? 4 then 4096 else 0) (fun _ => 0) no_flags m))) = m) by (intro m; vm_compute; reflexivity).
  exact (G (mm stA)).
Qed.
Lemma range0 x : marks_of sL1 wsA 0 0 <= x < marks_of sL1 wsA 0 (length (b_body (blkL "c"))) -> 65536 <= x < 65556.
Proof.
  replace (marks_of sL1 wsA 0 0) with 65536 by (vm_compute; reflexivity). replace (marks_of sL1 wsA 0 (length (b_body (blkL "c")))) with 65556 by (vm_compute; reflexivity). auto.
Qed.
Lemma one {A} (a b : A) u : nth_error [a] u = Some b -> u = 0%nat /\ b = a.
Proof. destruct u as [|u]; cbn; [intros [= ->]; auto|destruct u; discriminate]. Qed.
Lemma touchA : untouched sL1 [blkL "c"] (marks_of sL1 wsA) (mem sL1) (mm stA).
Proof.
  split.
  - intros u b x Hu. apply one in Hu. destruct Hu as [-> ->]. intro Hx. apply range0 in Hx. unfold stA, hostS. cbn [snd mm stL].
    destruct (Z.eqb_spec x 4097); [lia|]. destruct (Z.leb_spec 4096 x), (Z.ltb_spec x 4104); cbn; try lia; reflexivity.
  - intros p pos H. exfalso. revert H. apply no_pending. vm_compute. reflexivity.
Qed.
Lemma keepA : keeps_blocks (mm stA) [blkL "c"] (final sL1) (marks_of sL1 wsA) 1 (At 0 1) stA.
Proof.
  intros j w' st' u b Hj E Hu x Hx.
  assert (G : forall m, match j with 0%nat | 1%nat => mm (state (runA j (mkMach (fun i => if i =? 4 then 4096 else 0) (fun _ => 0) no_flags m))) = m | _ => True end)
    by (intro m; destruct j as [|[|j]]; [vm_compute; reflexivity|vm_compute; reflexivity|exact I]).
  specialize (G (mm stA)). change (mkMach (fun i => if i =? 4 then 4096 else 0) (fun _ => 0) no_flags (mm stA)) with stA in G. unfold runA in G. rewrite E in G. cbn [state] in G.
  destruct j as [|[|j]]; [rewrite G; reflexivity|rewrite G; reflexivity|lia].
Qed.
Lemma runB : runA 1 stA = PInside mach (At 0 3) stB.
Proof. rewrite (is_inside_eq (runA 1 stA)) by (vm_compute; reflexivity). fold stB. replace (inside (runA 1 stA)) with (At 0 3) by (vm_compute; reflexivity). reflexivity. Qed.
Lemma grownB : run (hL2 ++ [OFinalize]) (seen stB sL1) = Some sB.
Proof. apply some_the. vm_compute. reflexivity. Qed.
Lemma blocksB : blocks hL2 (seen stB sL1) = [blkM]. Proof. vm_compute. reflexivity. Qed.
Lemma boundB : bound_once (hL2 ++ [OFinalize]) (seen stB sL1).
Proof.
  split.
  - intros pre o rest s l E Hr Hb.
    assert (D : (pre = firstn 1 hL2 /\ o = asm bodyM) \/ match o with OLabel | OSelect _ | OFinalize => True | _ => False end).
    { unfold hL2 in *. cbn [app firstn] in *. do 3 (destruct pre as [|? pre]; [injection E as <- _; auto 8|cbn [app] in E; injection E as <- E]). destruct pre; discriminate E. }
    apply free_ok. destruct D as [[-> ->]|D]; [|elim (no_call o l D Hb)].
    apply (state_of _ _ s (free l) Hr); clear Hr E; destruct Hb as (x & Hx & <-); cbn in Hx; intuition; try discriminate; match goal with H : ILabel _ = ILabel _ |- _ => injection H as <- end; vm_compute; repeat split.
  - intros b Hb. replace (blocks (hL2 ++ [OFinalize]) (seen stB sL1)) with [blkM] in Hb by (vm_compute; reflexivity). destruct Hb as [<-|[]]. vm_compute. repeat constructor; cbn; intuition discriminate.
Qed.
Lemma completeB : complete hL2 (seen stB sL1) sB.
Proof.
  intros b Hb. rewrite blocksB in Hb. destruct Hb as [<-|[]].
  split; [repeat split; cbn; auto; repeat constructor|]; intros x Hx; vm_compute in Hx; intuition; subst; vm_compute in *; discriminate.
Qed.
Lemma patchedC : step oL3 (seen stC sB) = Ok None sC.
Proof.
  assert (E : match step oL3 (seen stC sB) with Ok None _ => true | _ => false end = true) by (vm_compute; reflexivity).
  unfold sC, after. destruct (step oL3 (seen stC sB)) as [[|] s|]; try discriminate E. reflexivity.
Qed.
Lemma runE : inside (runD 5 stD) = Away 4608 /\ is_inside (runD 5 stD) = true /\ regs (state (runD 5 stD)) 0 = 16.
Proof. split; [|split]; vm_compute; reflexivity. Qed.
Lemma keepD : keeps_blocks (mm stD) [blkL "p"; blkM] (final sC) (marks_of sC placesL) 5 (At 0 3) stD.
Proof.
  intros j w' st' u b Hj E Hu x Hx.
  assert (G : forall m, match j with 0%nat | 1%nat | 2%nat | 3%nat | 4%nat | 5%nat => mm (state (runD j (with_memory m stC))) = m | _ => True end).
  { intro m. destruct j as [|[|[|[|[|[|j]]]]]]; [vm_compute; reflexivity|vm_compute; reflexivity|vm_compute; reflexivity|vm_compute; reflexivity|vm_compute; reflexivity|vm_compute; reflexivity|exact I]. }
  specialize (G (mm stD)). change (with_memory (mm stD) stC) with stD in G. unfold runD in G. rewrite E in G. cbn [state] in G.
  destruct j as [|[|[|[|[|[|j]]]]]]; [rewrite G; reflexivity|rewrite G; reflexivity|rewrite G; reflexivity|rewrite G; reflexivity|rewrite G; reflexivity|rewrite G; reflexivity|lia].
Qed.
Lemma case64 :
  (* a host calls the program: *) reached newD /\ lives newD sL1 [blkL "c"] /\ untouched sL1 [blkL "c"] (marks_of sL1 wsA) (mem sL1) (mm stA) /\
  (* one step *) keeps_blocks (mm stA) [blkL "c"] (final sL1) (marks_of sL1 wsA) 1 (At 0 1) stA /\ runA 1 stA = PInside mach (At 0 3) stB /\ untouched sL1 [blkL "c"] (marks_of sL1 wsA) (mm stA) (mm stB) /\
  (* p: is assembled *) run (hL2 ++ [OFinalize]) (seen stB sL1) = Some sB /\ bound_once (hL2 ++ [OFinalize]) (seen stB sL1) /\ complete hL2 (seen stB sL1) sB /\ blocks hL2 (seen stB sL1) = [blkM] /\
  (* the jump at b is patched *) step oL3 (seen stC sB) = Ok None sC /\ patches sB oL3 (lenvD "b") (lenvD "p") /\
  (* five steps *) keeps_blocks (mm stD) [blkL "p"; blkM] (final sC) (marks_of sC placesL) 5 (At 0 3) stD /\ inside (runD 5 stD) = Away 4608 /\ regs (state (runD 5 stD)) 0 = 16 /\
  (* and on the processor *) option_map fst (cpu 1 65536 stA) = Some 65546 /\ option_map (fun x => (fst x, regs (snd x) 0)) (cpu 5 65546 stD) = Some (4608, 16).
Proof.
  split; [apply reached_new|]. split; [exact livesL1|]. split; [exact touchA|]. split; [exact keepA|]. split; [exact runB|]. split; [rewrite stB_mem; split; reflexivity|].
  split; [exact grownB|]. split; [exact boundB|]. split; [exact completeB|]. split; [exact blocksB|]. split; [exact patchedC|]. split; [left; reflexivity|]. split; [exact keepD|].
  split; [apply runE|]. split; [apply runE|]. split; vm_compute; reflexivity.
Qed.
