(** Where the code of a program of the README's virtual machine is, and what it is. *)
From Verif Require Import Base ModelMem ModelEnc ModelSyntax ModelMacro SpecX86 SpecAsm SpecTaken SpecState SpecHist
  Emit MemInv MemStep MemFinal MemHist MemRun MemMisc MemFacts MemPlace ProgOne SpecProg ProgBlock ProgExec SpecMachine SpecCpu SpecScope ScopeFacts ScopeBlock MultiPlace ModelParse DemoText Fibo SpecVm VmCode.
Local Notation length := List.length.
Local Open Scope string_scope.
Local Open Scope list_scope.
Local Open Scope Z_scope.

(** ** Machine instructions one after the other on page 0.  An instruction may depend on the address of the next. *)
Definition ins_at (s : jit) (a : Z) (x : ins) (b : Z) : Prop :=
  a <= b <= a + 15 /\ forall rest, decode (bytes s P0 a (Z.to_nat (b - a)) ++ rest) = Some (x, rest).
Fixpoint seq_at (s : jit) (a : Z) (xs : list (Z -> ins)) (b : Z) : Prop :=
  match xs with [] => b = a | x :: r => exists c, ins_at s a (x (addr s P0 c)) c /\ seq_at s c r b end.
Lemma seq_le s : forall xs a b, seq_at s a xs b -> a <= b.
Proof. induction xs as [|x xs IH]; intros a b H; cbn [seq_at] in H; [lia|]. destruct H as (c & [H _] & H'). apply IH in H'. lia. Qed.
(** ** From a listing *)
Section Listing.
Variable mean : (string -> Z) -> inst -> option ins.
Variable target : string -> Z.
Definition not_xchg (x : ins) : Prop := match i_mnem x with Xchg => False | _ => True end.
Fixpoint expects (body : list inst) (xs : list (Z -> ins)) : Prop :=
  match body, xs with
  | [], [] => True
  | ILabel _ :: b, xs => expects b xs
  | i :: b, x :: xs => is_instr i = true /\ (forall next y, mean (fun l => target l - next) i = Some y -> y = x next /\ not_xchg y) /\ expects b xs
  | _, _ => False
  end.
Lemma expects_cons i b xs : expects (i :: b) xs -> (exists l, i = ILabel l /\ expects b xs) \/
  (exists x xs', xs = x :: xs' /\ is_instr i = true /\ (forall next y, mean (fun l => target l - next) i = Some y -> y = x next /\ not_xchg y) /\ expects b xs').
Proof.
  cbn [expects]. destruct i; try (left; eexists; split; [reflexivity|]; assumption); destruct xs as [|x xs]; try (intros []; fail); intros H; right; exists x, xs; (split; [reflexivity|exact H]).
Qed.
Lemma not_xchg_same x y : same_ins x y -> not_xchg x -> y = x.
Proof. intros H N. destruct H; [reflexivity|elim N|elim N]. Qed.
Lemma listing_tail s m ms i b : listing mean target s P0 (m :: ms) (i :: b) -> listing mean target s P0 ms b /\ exists c r, ms = c :: r /\ stmt_at mean target s P0 i m c.
Proof.
  intros [Hl H]. cbn [List.length] in Hl. split.
  - split; [lia|]. intros k j a c H1 H2 H3. apply (H (S k) j a c); assumption.
  - destruct ms as [|c r]; [cbn in Hl; lia|]. exists c, r. split; [reflexivity|]. apply (H 0%nat); reflexivity.
Qed.
Lemma listing_seq s : forall body xs ms a, listing mean target s P0 ms body -> expects body xs -> hd_error ms = Some a -> seq_at s a xs (last ms 0).
Proof.
  induction body as [|i body IH]; intros xs ms a L X Hh.
  - cbn [expects] in X. destruct xs; [|elim X]. destruct ms as [|m [|m' ms]]; [destruct L as [L _]; discriminate| |destruct L as [L _]; discriminate]. cbn in *. congruence.
  - destruct ms as [|m ms]; [discriminate|]. cbn in Hh. injection Hh as ->. destruct (listing_tail _ _ _ _ _ L) as [L' (c & r & -> & St)].
    replace (last (a :: c :: r) 0) with (last (c :: r) 0) by reflexivity.
    destruct (expects_cons _ _ _ X) as [(l & -> & X')|(x & xs' & -> & Hi & Hm & X')].
    + cbn [stmt_at] in St. subst c. apply (IH xs (a :: r) a L' X' eq_refl).
    + cbn [seq_at]. exists c. split; [|apply (IH xs' (c :: r) c L' X' eq_refl)].
      assert (S' : a <= c <= a + 15 /\ exists x y, mean (fun l => target l - addr s P0 c) i = Some x /\ same_ins x y /\ forall rest, decode (bytes s P0 a (Z.to_nat (c - a)) ++ rest) = Some (y, rest))
        by (destruct i; try discriminate Hi; exact St).
      destruct S' as (B & u & v & Hu & Hs & Hd). destruct (Hm _ _ Hu) as [-> N]. rewrite (not_xchg_same _ _ Hs N) in Hd. split; assumption.
Qed.
End Listing.

(** ** Calls and what they leave behind *)
Record item := mkItem { it_op : op; it_mark : option label; it_refs : list label; it_code : (label -> Z) -> list (Z -> ins) }.
Definition item_ok (it : item) : Prop :=
  api (it_op it) = true /\ MemStep.plain (it_op it) = true /\ is_finalize (it_op it) = false /\ (forall l, binds_label (it_op it) l -> it_mark it = Some l) /\
  forall T s o s1 ops s4, reached s -> cur s = P0 -> step (it_op it) s = Ok o s1 -> forallb api ops = true -> run ops s1 = Some s4 ->
    (forall l, In l (it_refs it) -> linked ops s1 l = Some (T l)) -> (forall l, it_mark it = Some l -> fixed_label s l) ->
    seq_at s4 (cursor s) (it_code it T) (cursor s1) /\ cur s1 = P0 /\ (forall l, it_mark it = Some l -> loc_of s1 l = Some (P0, cursor s)).
Definition block_mark (body : list inst) : option string := match body with ILabel x :: _ => Some x | _ => None end.
Lemma text_item vars labs t code :
  let lenv := lookup 0%nat labs in let r := lookup 0 vars in let body := stmts t in
  typed rust_ev r body ->
  defined body = match block_mark body with Some x => [x] | None => [] end ->
  (forall T, expects (as_linked (eval rust_ev r)) (fun x => T (lenv x)) (frozen rust_ev r body) (code T)) ->
  item_ok (mkItem (text vars labs t) (option_map lenv (block_mark body)) (map lenv (body_labels body)) code).
Proof.
  intros lenv r body Ty D X. split; [reflexivity|]. split; [reflexivity|]. split; [reflexivity|]. unfold text. fold lenv r body. cbn [it_op it_mark it_refs it_code]. split.
  { intros l Hb. cbn [binds_label] in Hb. destruct Hb as (x & Hx & <-). apply in_defined in Hx. rewrite D in Hx. destruct (block_mark body) as [y|]; [|elim Hx].
    destruct Hx as [-> |[]]. reflexivity. }
  intros T s o s1 ops s4 R Hc Es Ha E HL Hf. rewrite (block_frozen rust_ev rust_ev lenv r r body s) in Es. destruct (block_after _ _ _ _ _ _ _ Es) as (gs & r' & Hg & He).
  destruct (block_linked rust_ev lenv r (fun x => T (lenv x)) ops s4 Ha (frozen rust_ev r body) r gs s r' s1 R (same_refl r) (frozen_regular _ _ _ _ _ Ty) Hg He E) as (ms & L & Hh & Hla & Hcur & Hlab).
  { intros x Hx. apply HL. rewrite frozen_labels in Hx. apply in_map, Hx. }
  rewrite Hc in L, Hcur, Hlab. split; [rewrite <- Hla; exact (listing_seq _ _ s4 _ _ ms _ L (X T) Hh)|]. split; [exact Hcur|].
  intros l Hl. destruct body as [|i0 body0] eqn:Eb; [discriminate|]. destruct i0; try discriminate Hl. cbn [block_mark option_map] in Hl. injection Hl as <-.
  apply (Hlab 0%nat ident (cursor s)); [reflexivity| | |apply Hf; reflexivity].
  - destruct ms; [discriminate|]. cbn in Hh |- *. congruence.
  - intros j y Hj Hy. exfalso. destruct j as [|j]; [lia|]. cbn [frozen nth_error] in Hy. apply defined_in in Hy. rewrite frozen_defined in Hy.
    cbn [defined flat_map app block_mark] in D. injection D as D. unfold defined in Hy. rewrite D in Hy. exact Hy.
Qed.
Lemma bind_item l : item_ok (mkItem (OBind l) (Some l) [] (fun _ => [])).
Proof.
  split; [reflexivity|]. split; [reflexivity|]. split; [reflexivity|]. cbn [it_op it_mark it_refs it_code]. split; [cbn [binds_label]; intros k ->; reflexivity|].
  intros T s o s1 ops s4 R Hc Es Ha E _ _. cbn [step] in Es. unfold nolabel, bind, ret in Es. destruct (bind_label l s) as [[] s2|] eqn:Eb; [|discriminate]. injection Es as _ <-.
  pose proof (bind_sets l s s2 Eb) as Hl. unfold bind_label, on_cur, bind_label_on, bind, get_counter, modify_label in Eb.
  destruct (l <? length (labels s))%nat; [|discriminate]. injection Eb as <-. cbn [seq_at]. split; [reflexivity|]. split; [exact Hc|].
  intros k Hk. injection Hk as <-. rewrite Hl, Hc. reflexivity.
Qed.

(** A list of calls from position [a] to [e]. *)
Fixpoint chain (T : label -> Z) (s4 : jit) (its : list item) (a e : Z) : Prop :=
  match its with
  | [] => a = e
  | it :: r => (forall l, it_mark it = Some l -> label_addr s4 l = Some (addr s4 P0 a)) /\ exists b, seq_at s4 a (it_code it T) b /\ chain T s4 r b e
  end.
Lemma chain_le T s4 : forall its a e, chain T s4 its a e -> a <= e.
Proof. induction its as [|it its IH]; intros a e H; cbn [chain] in H; [lia|]. destruct H as (_ & b & H & H'). apply seq_le in H. apply IH in H'. lia. Qed.
Lemma chain_app T s4 : forall xs ys a e, chain T s4 (xs ++ ys) a e -> exists b, chain T s4 xs a b /\ chain T s4 ys b e.
Proof.
  induction xs as [|x xs IH]; intros ys a e H; cbn [app chain] in *; [exists a; auto|]. destruct H as (Hm & b & Hs & H). destruct (IH _ _ _ H) as (c & H1 & H2).
  exists c. split; [|exact H2]. split; [exact Hm|]. exists b. auto.
Qed.
Lemma calls_run : forall ops s s', calls ops s = Some s' -> run ops s = Some s'.
Proof.
  induction ops as [|o ops IH]; intros s s' H; cbn [calls run] in *; [exact H|]. unfold after. destruct (step o s) as [x s1|]; [apply IH, H|discriminate].
Qed.
Lemma calls_app : forall a b s s', calls (a ++ b) s = Some s' -> exists s1, calls a s = Some s1 /\ calls b s1 = Some s'.
Proof. induction a as [|o a IH]; intros b s s' H; cbn [app calls] in *; [eauto|]. destruct (step o s); [apply IH, H|discriminate]. Qed.
Lemma run_last a s s1 s4 : run a s = Some s1 -> after OFinalize s1 = Some s4 -> run (a ++ [OFinalize]) s = Some s4.
Proof. intros H F. apply run_app. exists s1. split; [exact H|]. cbn [run]. rewrite F. reflexivity. Qed.
Lemma linked_last : forall ops s s1 s4 l, (forall o, In o ops -> is_finalize o = false) -> run ops s = Some s1 -> after OFinalize s1 = Some s4 ->
  linked (ops ++ [OFinalize]) s l = label_addr s4 l.
Proof.
  induction ops as [|o ops IH]; intros s s1 s4 l Hn E F; cbn [app linked].
  - cbn in E. injection E as ->. rewrite F. cbn [is_finalize]. destruct (label_addr s4 l); reflexivity.
  - apply run_cons in E. destruct E as (s2 & E2 & E). rewrite E2, (Hn o (or_introl eq_refl)). apply (IH s2 s1 s4); auto. intros o' Ho. apply Hn. right. exact Ho.
Qed.
Definition mark_of (it : item) : list label := match it_mark it with Some l => [l] | None => [] end.
Lemma in_marks l its : In l (flat_map mark_of its) <-> exists it, In it its /\ it_mark it = Some l.
Proof.
  rewrite in_flat_map. unfold mark_of. split; intros (it & Hi & H); exists it; (split; [exact Hi|]); destruct (it_mark it); [destruct H as [->|[]]; reflexivity|elim H|injection H as ->; left; reflexivity|discriminate].
Qed.
Theorem items_placed (T : label -> Z) s3 s4 : after OFinalize s3 = Some s4 -> forall its s, reached s -> cur s = P0 -> Forall item_ok its -> NoDup (flat_map mark_of its) ->
  calls (map it_op its) s = Some s3 -> (forall it l, In it its -> In l (it_refs it) -> label_addr s4 l = Some (T l)) ->
  (forall l, In l (flat_map mark_of its) -> fixed_label s l) -> chain T s4 its (cursor s) (cursor s3).
Proof.
  intro F. induction its as [|it its IH]; intros s R Hc Hok Hnd E HT Hf; cbn [chain]; [cbn in E; congruence|].
  inversion Hok as [|? ? Hit Hok']; subst. destruct Hit as (A & _ & Fi & Bd & P). cbn [map calls] in E. destruct (step (it_op it) s) as [o s1|] eqn:Es; [|discriminate].
  assert (E1 : after (it_op it) s = Some s1) by (unfold after; rewrite Es; reflexivity).
  pose proof (reached_api _ _ _ R A E1) as R1. pose proof (calls_run _ _ _ E) as Er.
  assert (Ha : forallb api (map it_op its ++ [OFinalize]) = true).
  { rewrite forallb_app. apply andb_true_iff. split; [|reflexivity]. apply forallb_forall. intros x Hx. apply in_map_iff in Hx. destruct Hx as (y & <- & Hy).
    rewrite Forall_forall in Hok'. apply (Hok' y Hy). }
  assert (Hn : forall x, In x (map it_op its) -> is_finalize x = false).
  { intros x Hx. apply in_map_iff in Hx. destruct Hx as (y & <- & Hy). rewrite Forall_forall in Hok'. apply (Hok' y Hy). }
  pose proof (run_last _ _ _ _ Er F) as Erf.
  destruct (P T s o s1 (map it_op its ++ [OFinalize]) s4 R Hc Es Ha Erf) as (Sq & Hc1 & Hm).
  { intros l Hl. rewrite (linked_last _ _ _ _ _ Hn Er F). apply (HT it l); [left; reflexivity|exact Hl]. }
  { intros l Hl. apply Hf. apply in_marks. exists it. split; [left; reflexivity|exact Hl]. }
  cbn [flat_map] in Hnd, Hf. split.
  - intros l Hl. assert (Fl : fixed_label s1 l) by (apply (fixed_step (it_op it) s s1); auto using Inv_reached; apply Hf, in_or_app; left; unfold mark_of; rewrite Hl; left; reflexivity).
    unfold label_addr. rewrite (loc_run (map it_op its ++ [OFinalize]) s1 s4 l (Inv_reached _ R1) Ha Erf Fl).
    + rewrite (Hm l Hl). reflexivity.
    + intros x Hx K. apply in_app_or in Hx. destruct Hx as [Hx|[<-|[]]]; [|exact K]. apply in_map_iff in Hx. destruct Hx as (y & <- & Hy).
      rewrite Forall_forall in Hok'. destruct (Hok' y Hy) as (_ & _ & _ & By & _). pose proof (By l (proj1 (binds_agree _ _) K)) as My.
      unfold mark_of at 1 in Hnd. rewrite Hl in Hnd. cbn [app] in Hnd. inversion Hnd as [|? ? Hni _]; subst. apply Hni, in_marks. exists y. split; assumption.
  - exists (cursor s1). split; [exact Sq|]. apply (IH s1 R1 Hc1 Hok'); auto.
    + clear -Hnd. revert Hnd. generalize (mark_of it). induction l as [|x l IHl]; intro H; [exact H|]. inversion H; subst. apply IHl. assumption.
    + intros it' l Hi. apply HT. right. exact Hi.
    + intros l Hl. apply (fixed_step (it_op it) s s1); auto using Inv_reached. apply Hf, in_or_app. right. exact Hl.
Qed.

Lemma items_cur : forall its s s1, Inv s -> Forall item_ok its -> calls (map it_op its) s = Some s1 -> cur s1 = cur s.
Proof.
  induction its as [|it its IH]; intros s s1 I Hok E; [cbn in E; congruence|]. inversion Hok as [|? ? (A & Pl & _) Hok']; subst. cbn [map calls] in E.
  destruct (step (it_op it) s) as [o s2|] eqn:Es; [|discriminate]. assert (E2 : after (it_op it) s = Some s2) by (unfold after; rewrite Es; reflexivity).
  rewrite (IH s2 s1 (Inv_step _ _ _ I A E2) Hok' E). apply (go_cur _ _ _ (plain_leaves _ _ _ (ri_cnt _ (iv_r _ I)) Pl (after_leaves _ _ _ E2))).
Qed.
(** The labels are bound in the end. *)
Lemma items_bound s3 s4 : after OFinalize s3 = Some s4 -> forall its s, reached s -> cur s = P0 -> Forall item_ok its -> NoDup (flat_map mark_of its) ->
  calls (map it_op its) s = Some s3 -> (forall it, In it its -> it_mark it = None \/ it_refs it = []) ->
  (forall l, In l (flat_map mark_of its) -> fixed_label s l) -> forall l, In l (flat_map mark_of its) -> label_addr s4 l <> None.
Proof.
  intros F its s R Hc Hok Hnd E HR Hf l Hl. apply in_marks in Hl. destruct Hl as (it & Hi & Hm). apply in_split in Hi. destruct Hi as (pre & post & ->).
  rewrite map_app in E. apply calls_app in E. destruct E as (s1 & E1 & E).
  apply Forall_app in Hok. destruct Hok as [O1 O2]. rewrite flat_map_app in Hnd, Hf.
  assert (A1 : forallb api (map it_op pre) = true) by (apply forallb_forall; intros x Hx; apply in_map_iff in Hx; destruct Hx as (y & <- & Hy); rewrite Forall_forall in O1; apply (O1 y Hy)).
  assert (R1 : reached s1) by (apply (reached_run (map it_op pre) s); [exact R|exact A1|apply calls_run, E1]).
  assert (Fx : forall k, fixed_label s k -> fixed_label s1 k).
  { intros k Hk. clear -A1 E1 Hk R. apply calls_run in E1. apply Inv_reached in R. revert s R Hk E1. induction (map it_op pre) as [|o ops IH]; intros s I Hk E1; [cbn in E1; congruence|].
    apply run_cons in E1. destruct E1 as (s2 & E2 & E1). cbn [forallb] in A1. apply andb_true_iff in A1. destruct A1 as [Ha A1].
    apply (IH A1 s2); [eapply Inv_step; eauto|eapply fixed_step; eauto|exact E1]. }
  set (T := fun _ : label => 0).
  assert (C : chain T s4 [it] (cursor s1) (cursor s1) \/ label_addr s4 l = Some (addr s4 P0 (cursor s1))); [|destruct C as [(C & _)|C]; [rewrite (C l Hm)|rewrite C]; discriminate].
  right. inversion O2 as [|? ? Hit O2']; subst. cbn [map calls] in E. destruct (step (it_op it) s1) as [o s2|] eqn:Es; [|discriminate].
  destruct Hit as (A & Pl & Fi & Bd & P). assert (E2 : after (it_op it) s1 = Some s2) by (unfold after; rewrite Es; reflexivity).
  pose proof (reached_api _ _ _ R1 A E2) as R2. pose proof (calls_run _ _ _ E) as Er. pose proof (run_last _ _ _ _ Er F) as Erf.
  assert (Ha : forallb api (map it_op post ++ [OFinalize]) = true).
  { rewrite forallb_app. apply andb_true_iff. split; [|reflexivity]. apply forallb_forall. intros x Hx. apply in_map_iff in Hx. destruct Hx as (y & <- & Hy).
    rewrite Forall_forall in O2'. apply (O2' y Hy). }
  assert (Hr : it_refs it = []) by (destruct (HR it) as [K|K]; [apply in_or_app; right; left; reflexivity|congruence|exact K]).
  assert (Fl : fixed_label s1 l) by (apply Fx, Hf, in_or_app; right; cbn [flat_map]; apply in_or_app; left; unfold mark_of; rewrite Hm; left; reflexivity).
  destruct (P T s1 o s2 (map it_op post ++ [OFinalize]) s4 R1) as (_ & _ & Hloc); auto.
  { rewrite (items_cur pre s s1 (Inv_reached _ R) O1 E1). exact Hc. }
  { rewrite Hr. intros k []. }
  { intros k Hk. assert (k = l) by congruence. subst k. exact Fl. }
  unfold label_addr. rewrite (loc_run (map it_op post ++ [OFinalize]) s2 s4 l (Inv_reached _ R2) Ha Erf).
  - rewrite (Hloc l Hm). reflexivity.
  - eapply (fixed_step (it_op it) s1 s2); eauto using Inv_reached.
  - intros x Hx K. apply in_app_or in Hx. destruct Hx as [Hx|[<-|[]]]; [|exact K]. apply in_map_iff in Hx. destruct Hx as (y & <- & Hy).
    rewrite Forall_forall in O2'. destruct (O2' y Hy) as (_ & _ & _ & By & _). pose proof (By l (proj1 (binds_agree _ _) K)) as My.
    apply NoDup_app_iff in Hnd. destruct Hnd as (_ & Hnd & _). cbn [flat_map] in Hnd. unfold mark_of at 1 in Hnd. rewrite Hm in Hnd. cbn [app] in Hnd. inversion Hnd as [|? ? Hni _]; subst. apply Hni, in_marks. exists y. split; assumption.
Qed.
