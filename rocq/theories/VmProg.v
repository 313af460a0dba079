(** Where the functions of a program of the README's virtual machine are. *)
From Verif Require Import Base ModelMem ModelEnc ModelSyntax ModelMacro SpecX86 SpecAsm SpecTaken SpecState SpecHist SpecMulti
  MemInv MemStep MemHist MemRun MemMisc SpecProg SpecMachine SpecCpu SpecScope ModelParse DemoText Fibo SpecVm VmCode VmPlace VmItems.
Local Notation length := List.length.
Local Open Scope list_scope.
Local Open Scope Z_scope.

Lemma labels_made : forall n s, exists s', calls (repeat OLabel n) s = Some s' /\ pages s' = pages s /\ cur s' = cur s /\ base s' = base s /\ length (labels s') = (length (labels s) + n)%nat.
Proof.
  induction n as [|n IH]; intro s; cbn [repeat calls]; [exists s; repeat split; lia|].
  destruct (IH (set_labels (labels s ++ [label_new]) s)) as (s' & E & Hp & Hc & Hb & Hl). exists s'. split; [exact E|]. repeat split; [exact Hp|exact Hc|exact Hb|].
  rewrite Hl. cbn [set_labels labels]. rewrite app_length. cbn [List.length]. lia.
Qed.
Lemma fun_marks f : flat_map mark_of (fun_items f) = labels_of f.
Proof.
  unfold fun_items, labels_of, fun_tail. rewrite !flat_map_app. cbn [flat_map mark_of i_name i_prologue i_save i_end i_epilogue it_mark app].
  f_equal. f_equal. unfold marks. induction (v_body f) as [|i c IH]; [reflexivity|]. cbn [map flat_map]. rewrite IH. destruct i; reflexivity.
Qed.
Lemma prog_marks : forall fs, flat_map mark_of (flat_map fun_items fs) = flat_map labels_of fs.
Proof. induction fs as [|f fs IH]; [reflexivity|]. cbn [flat_map]. rewrite flat_map_app, IH, fun_marks. reflexivity. Qed.
Lemma prog_ops : forall fs, map it_op (flat_map fun_items fs) = flat_map vm_fun fs.
Proof. induction fs as [|f fs IH]; [reflexivity|]. cbn [flat_map]. rewrite map_app, IH, fun_ops. reflexivity. Qed.
Lemma fun_ok labels fs f : vm_ok labels fs -> In f fs -> Forall item_ok (fun_items f).
Proof.
  intros (_ & _ & H) Hf. destruct (H f Hf) as (Hl & Ha & Hb). unfold fun_items, fun_tail.
  apply Forall_app. split; [apply Forall_cons; [apply bind_item|apply Forall_cons; [apply it_pro, Hl|apply Forall_cons; [apply it_save; assumption|apply Forall_nil]]]|].
  apply Forall_app. split; [|apply Forall_cons; [apply it_end|apply Forall_cons; [apply it_epi|apply Forall_nil]]].
  apply Forall_forall. intros it Hi. apply in_map_iff in Hi. destruct Hi as (i & <- & Hi). apply (vm_item_ok fs f); auto.
Qed.
Lemma prog_ok labels fs : vm_ok labels fs -> Forall item_ok (flat_map fun_items fs).
Proof.
  intro H. apply Forall_forall. intros it Hi. apply in_flat_map in Hi. destruct Hi as (f & Hf & Hi).
  pose proof (fun_ok _ _ _ H Hf) as K. rewrite Forall_forall in K. apply K, Hi.
Qed.
Lemma label_in f : forall l fs, In f fs -> In l (labels_of f) -> In l (flat_map labels_of fs).
Proof. intros l fs Hf Hl. apply in_flat_map. exists f. auto. Qed.
Lemma prog_refs labels fs it l : vm_ok labels fs -> In it (flat_map fun_items fs) -> In l (it_refs it) -> In l (flat_map labels_of fs).
Proof.
  intros (_ & _ & H) Hi Hl. apply in_flat_map in Hi. destruct Hi as (f & Hf & Hi). destruct (H f Hf) as (_ & _ & Hb).
  unfold fun_items, fun_tail in Hi. apply in_app_or in Hi. destruct Hi as [Hi|Hi].
  - destruct Hi as [<-|[<-|[<-|[]]]]; elim Hl.
  - apply in_app_or in Hi. destruct Hi as [Hi|[<-|[<-|[]]]]; [|elim Hl|elim Hl]. apply in_map_iff in Hi. destruct Hi as (i & <- & Hi). pose proof (Hb i Hi) as K.
    destruct i; cbn [vm_item it_refs vm_refs vmi_ok] in *; try elim Hl.
    + intros <-. apply (label_in f); [exact Hf|]. right. apply in_or_app. destruct K as [-> | K]; [right; left; reflexivity|left; exact K].
    + intros [].
    + intros <-. apply (label_in f); [exact Hf|]. right. apply in_or_app. destruct K as [-> | K]; [right; left; reflexivity|left; exact K].
    + intros [].
    + intros <-. destruct K as (K & _). apply in_map_iff in K. destruct K as (g & <- & Hg). apply (label_in g); [exact Hg|left; reflexivity].
    + intros [].
Qed.
Lemma prog_mark_refs fs it : In it (flat_map fun_items fs) -> it_mark it = None \/ it_refs it = [].
Proof.
  intro Hi. apply in_flat_map in Hi. destruct Hi as (f & Hf & Hi). unfold fun_items, fun_tail in Hi. apply in_app_or in Hi. destruct Hi as [Hi|Hi].
  - destruct Hi as [<-|[<-|[<-|[]]]]; auto.
  - apply in_app_or in Hi. destruct Hi as [Hi|[<-|[<-|[]]]]; auto. apply in_map_iff in Hi. destruct Hi as (i & <- & Hi). destruct i; cbn; auto.
Qed.

(** The label of a function is at its code. *)
Theorem vm_placed labels fs b m s s4 : vm_ok labels fs -> calls (repeat OLabel labels ++ flat_map vm_fun fs) (jit_new b m) = Some s -> after OFinalize s = Some s4 ->
  base s4 = b /\ cur s = P0 /\ (forall l, In l (flat_map labels_of fs) -> label_addr s4 l = Some (final s4 l)) /\
  forall f, In f fs -> exists a e, 0 <= a /\ e <= cursor s /\ chain (final s4) s4 (fun_items f) a e.
Proof.
  intros H E F. apply calls_app in E. destruct E as (s0 & E0 & E). destruct (labels_made labels (jit_new b m)) as (s0' & E0' & Hp & Hc & Hb & Hl).
  rewrite E0' in E0. injection E0 as <-.
  assert (A0 : forallb api (repeat OLabel labels) = true) by (clear; induction labels; [reflexivity|assumption]).
  assert (R0 : reached s0') by (apply (reached_run (repeat OLabel labels) (jit_new b m)); [constructor|exact A0|apply calls_run, E0']).
  pose proof (prog_ok _ _ H) as Ok. rewrite <- prog_ops in E.
  assert (Hnd : NoDup (flat_map mark_of (flat_map fun_items fs))) by (rewrite prog_marks; apply H).
  assert (Hf : forall l, In l (flat_map mark_of (flat_map fun_items fs)) -> fixed_label s0' l).
  { intros l K. rewrite prog_marks in K. destruct H as (_ & H & _). specialize (H l K). split; [rewrite Hl; cbn; lia|]. unfold queue. rewrite Hp. cbn. tauto. }
  cbn [jit_new cur] in Hc.
  assert (HB : forall l, In l (flat_map labels_of fs) -> label_addr s4 l = Some (final s4 l)).
  { intros l K. rewrite <- prog_marks in K. pose proof (items_bound s s4 F (flat_map fun_items fs) s0' R0 Hc Ok Hnd E (prog_mark_refs fs) Hf l K) as N.
    unfold final. destruct (label_addr s4 l); [reflexivity|congruence]. }
  pose proof (items_placed (final s4) s s4 F (flat_map fun_items fs) s0' R0 Hc Ok Hnd E) as P.
  assert (C : chain (final s4) s4 (flat_map fun_items fs) (cursor s0') (cursor s)) by (apply P; [intros it l Hi K; apply HB; eapply prog_refs; eauto|exact Hf]).
  assert (C0 : cursor s0' = 0) by (unfold cursor; rewrite Hp, Hc; reflexivity). rewrite C0 in C.
  split; [|split; [|split; [exact HB|]]].
  - assert (A : forallb api (map it_op (flat_map fun_items fs) ++ [OFinalize]) = true).
    { rewrite forallb_app. apply andb_true_iff. split; [|reflexivity]. apply forallb_forall. intros x Hx. apply in_map_iff in Hx. destruct Hx as (y & <- & Hy).
      rewrite Forall_forall in Ok. apply (Ok y Hy). }
    rewrite (base_run _ s0' s4 (Inv_reached _ R0) A (run_last _ _ _ _ (calls_run _ _ _ E) F)). rewrite Hb. reflexivity.
  - rewrite (items_cur _ _ _ (Inv_reached _ R0) Ok E). exact Hc.
  - intros f Hi. apply in_split in Hi. destruct Hi as (p & q & ->). rewrite flat_map_app in C. cbn [flat_map] in C. apply chain_app in C. destruct C as (a & C1 & C).
    apply chain_app in C. destruct C as (e & C2 & C3). exists a, e. apply chain_le in C1, C3. split; [lia|]. split; [lia|exact C2].
Qed.
