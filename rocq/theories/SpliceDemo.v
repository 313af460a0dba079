(** Expressions as they are written between parentheses. *)
From Verif Require Import Base ModelSyntax SpecRust ModelSplice SpecSplice SpliceParse SpliceFacts SpliceThm.
From Verif Require DemoText.
Local Open Scope list_scope.
Local Open Scope Z_scope.

Definition toks (s : string) : list tok := DemoText.lex s.
Definition read (s : string) : option rexpr := match p_bin 30 0 (toks s) with Some (e, []) => Some e | _ => None end.
Lemma read_reads s e : read s = Some e -> reads (toks s) e.
Proof. unfold read. intros H. exists 30%nat. destruct (p_bin 30 0 (toks s)) as [[x [|]]|]; try discriminate. injection H as ->. reflexivity. Qed.
(** i: usize, n: i64, k: i32, u: u64 *)
Definition Gd (x : string) : option ity :=
  (if String.eqb x "i" then Some Usize else if String.eqb x "n" then Some I64 else if String.eqb x "k" then Some I32
   else if String.eqb x "u" then Some U64 else None)%string.
Definition rd (x : string) : Z :=
  (if String.eqb x "i" then 3 else if String.eqb x "n" then 4294967301 else if String.eqb x "k" then -7
   else if String.eqb x "u" then 18446744073709551611 else 0)%string.
Lemma typed_d : typed Gd rd.
Proof.
  intros x t. unfold Gd, rd. destruct (String.eqb x "i"); [intros [= <-]; reflexivity|].
  destruct (String.eqb x "n"); [intros [= <-]; reflexivity|]. destruct (String.eqb x "k"); [intros [= <-]; reflexivity|].
  destruct (String.eqb x "u"); [intros [= <-]; reflexivity|discriminate].
Qed.
(** What the expansion evaluates at a place, and what is meant; overflow panics. *)
Definition does (p : place) (s : string) : option (option Z) :=
  match p_bin 40 0 (code p (toks s)) with Some (x, []) => takes p Gd rd true x | _ => None end.
Definition meant (p : place) (s : string) : option (option Z) :=
  match read s with Some e => takes p Gd rd true (whole p e) | None => None end.
Definition div_e : rexpr := XBin BDiv (XLit 100) (XVar "n").
Definition sum_e : rexpr := XBin BAdd (XVar "i") (XVar "i").
Definition udiv_e : rexpr := XBin BDiv (XLit 100) (XVar "u").
Lemma disp_refuted : exists ts e x G r, reads ts e /\ reads (code (AtDisp false) ts) x /\ typed G r /\
  forall checks, takes (AtDisp false) G r checks x = Some (Some 20) /\
    takes (AtDisp false) G r checks (whole (AtDisp false) e) = Some (Some 0) /\ takes AtImm G r checks (whole AtImm e) = Some (Some 0).
Proof.
  exists (toks "100 / n"), div_e, (spliced (AtDisp false) div_e), Gd, rd.
  assert (R : reads (toks "100 / n") div_e) by (apply read_reads; vm_compute; reflexivity).
  split; [exact R|]. split; [exact (code_reads _ _ _ R)|]. split; [exact typed_d|]. intros []; vm_compute; auto.
Qed.
Lemma sum_refuted : exists ts e x G r, reads ts e /\ reads (code (AtDisp false) ts) x /\ typed G r /\
  forall checks, takes (AtDisp false) G r checks x = None /\ takes (AtDisp false) G r checks (whole (AtDisp false) e) = Some (Some 6).
Proof.
  exists (toks "i + i"), sum_e, (spliced (AtDisp false) sum_e), Gd, rd.
  assert (R : reads (toks "i + i") sum_e) by (apply read_reads; vm_compute; reflexivity).
  split; [exact R|]. split; [exact (code_reads _ _ _ R)|]. split; [exact typed_d|]. intros []; vm_compute; auto.
Qed.
Lemma call_refuted : exists ts e x G r, reads ts e /\ reads (code AtCall ts) x /\ typed G r /\
  forall checks, takes AtCall G r checks x = Some (Some (-20)) /\ takes AtCall G r checks (whole AtCall e) = Some (Some 0).
Proof.
  exists (toks "100 / u"), udiv_e, (spliced AtCall udiv_e), Gd, rd.
  assert (R : reads (toks "100 / u") udiv_e) by (apply read_reads; vm_compute; reflexivity).
  split; [exact R|]. split; [exact (code_reads _ _ _ R)|]. split; [exact typed_d|]. intros []; vm_compute; auto.
Qed.
Definition ring_ok_e : rexpr := XBin BAdd (XLit 4) (XBin BMul (XLit 8) (XVar "i")).
Lemma ring_reads : reads (toks "4 + 8 * i") ring_ok_e.
Proof. apply read_reads. vm_compute. reflexivity. Qed.
Lemma ring_lefts : Forall (fun y => (exists z, fst y = XLit z) /\ ring (snd y)) (lefts ring_ok_e).
Proof.
  constructor; [split; [exists 4; reflexivity|cbn; tauto]|]. constructor; [split; [exists 8; reflexivity|cbn; tauto]|]. constructor.
Qed.
