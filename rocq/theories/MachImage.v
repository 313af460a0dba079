(** Code whose bytes do not depend on where they are: the image of a program that has
    its entry point, label 0, at the start of the first page. *)
From Verif Require Import Base ModelMem ModelEnc ModelSyntax ModelMacro SpecX86 SpecAsm SpecState SpecHist
  EncDec Emit Trace MemInv MemHist MemRun MemMisc SpecProg ProgSim SpecMachine SpecCpu MachLib.
Local Notation length := List.length.
Local Open Scope list_scope.
Local Open Scope Z_scope.

Definition view_of (l : label) (n : nat) (s : option jit) : option (list Z * option (pid * Z)) :=
  match s with Some s => Some (bytes s P0 0 n, loc_of s l) | None => None end.
Lemma image_of ops l off img : forallb relocatable ops = true -> Z.of_nat (length img) <= PAGE_SIZE ->
  (forall m, view_of l (length img) (run ops (jit_new 0 m)) = Some (img, Some (P0, off))) ->
  forall b m, exists s, run ops (jit_new b m) = Some s /\ label_addr s l = Some (b + off) /\ img_in img b (mem s).
Proof.
  intros Hr Hl Hv b m. specialize (Hv (fun x => m (b + x))).
  pose proof (image_same ops 0 (fun x => m (b + x)) b m Hr (fun x _ => eq_refl)) as K.
  destruct (run ops (jit_new 0 _)) as [t|]; [|discriminate Hv]. destruct (run ops (jit_new b m)) as [s|] eqn:E; [|contradiction].
  destruct K as [(_ & _ & Kl) Kb]. cbn [view_of] in Hv. assert (Hb : bytes t P0 0 (length img) = img /\ loc_of t l = Some (P0, off)) by (split; congruence). destruct Hb as [Hb Hloc].
  assert (Bs : base s = b) by (apply (base_run ops (jit_new b m) s); [apply Inv_new|apply relocatable_all, Hr|exact E]).
  assert (A : addr s P0 0 = b) by (unfold addr, contents; rewrite Bs; cbn [pidx]; lia).
  exists s. split; [reflexivity|]. split.
  - unfold label_addr, loc_of. unfold loc_of in Hloc. rewrite Kl, Hloc. f_equal. unfold addr in *. lia.
  - intros i Hi. replace (b + i) with (addr s P0 i) by (unfold addr in *; lia). change (mem s (addr s P0 i)) with (byte s P0 i).
    rewrite Kb by lia. assert (G : nth (Z.to_nat i) (bytes t P0 0 (length img)) 0 = nth (Z.to_nat i) img 0) by (f_equal; exact Hb).
    rewrite <- G. unfold bytes. rewrite nth_read by lia. unfold byte, addr. f_equal. lia.
Qed.
Notation view := (view_of 0%nat).
Lemma image_at ops img : forallb relocatable ops = true -> Z.of_nat (length img) <= PAGE_SIZE ->
  (forall m, view (length img) (run ops (jit_new 0 m)) = Some (img, Some (P0, 0))) ->
  forall b m, exists s, run ops (jit_new b m) = Some s /\ label_addr s 0%nat = Some b /\ img_in img b (mem s).
Proof. intros Hr Hl Hv b m. destruct (image_of ops 0%nat 0 img Hr Hl Hv b m) as (s & E & A & H). rewrite Z.add_0_r in A. exists s. auto. Qed.
