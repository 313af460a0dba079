(** Property C68: an expression in parentheses has its own value, converted to the type its place wants.  [reads ts e]: the
    tokens are the Rust expression [e]; [code p ts]: the tokens the macro puts at place [p]; [takes]: what the surrounding code
    makes of an expression (None: does not compile; Some None: panics); [whole]: the expression evaluated by itself and converted. *)
From Verif Require Import Base ModelSyntax SpecRust ModelSplice SpecSplice SpliceThm SpliceDemo.
Local Open Scope list_scope.
Local Open Scope Z_scope.

(** ** C68.  [harmless]: nothing to ask of immediates and register numbers; a displacement has no operator outside parentheses, or
    its type is i32 and so are its operands; the distance of a call likewise with i64.
    What is missing: the same for all displacements and calls, which is false (below). *)
Theorem C68_partial : forall p ts e, reads ts e -> exists x, reads (code p ts) x /\
  forall G r checks, typed G r -> harmless p G e -> takes p G r checks x = takes p G r checks (whole p e).
Proof. exact splice_partial. Qed.
Print Assumptions C68_partial.
(** In general the conversion is that of the last operand; the expansion can be read in no other way. *)
Theorem C68_reading : forall p ts e x, reads ts e -> reads (code p ts) x ->
  x = match p with
      | AtImm => XCast (XParen e) I64
      | AtDisp false => cast_last I32 e
      | AtDisp true => XUn UNeg (XParen (cast_last I32 e))
      | AtCall => cast_last I64 e
      | AtReg => e
      end.
Proof. exact splice_reading. Qed.
Print Assumptions C68_reading.
(** With literals in front of +, -, *, &, | or ^ (such as 4 + 8 * i) and no overflow checks it makes no difference, either, provided
    the operands have at least 32 bits and both compile. *)
Theorem C68_ring_partial : forall n ts e x G r t, reads ts e -> reads (code (AtDisp n) ts) x -> kind_of G e = KTy t -> 32 <= bits t ->
  Forall (fun y => (exists z, fst y = XLit z) /\ ring (snd y)) (lefts e) ->
  takes (AtDisp n) G r false x <> None -> takes (AtDisp n) G r false (whole (AtDisp n) e) <> None ->
  takes (AtDisp n) G r false x = takes (AtDisp n) G r false (whole (AtDisp n) e).
Proof. exact splice_ring. Qed.
Print Assumptions C68_ring_partial.
(** [rax + (100 / n)] with n: i64 = 2^32 + 5 has the displacement 20, though 100 / n is 0, as it is in an immediate. *)
Theorem C68_refuted : exists ts e x G r, reads ts e /\ reads (code (AtDisp false) ts) x /\ typed G r /\
  forall checks, takes (AtDisp false) G r checks x = Some (Some 20) /\
    takes (AtDisp false) G r checks (whole (AtDisp false) e) = Some (Some 0) /\ takes AtImm G r checks (whole AtImm e) = Some (Some 0).
Proof. exact disp_refuted. Qed.
Print Assumptions C68_refuted.
(** [rax + (i + i)] with i: usize does not compile. *)
Theorem C68_compile_refuted : exists ts e x G r, reads ts e /\ reads (code (AtDisp false) ts) x /\ typed G r /\
  forall checks, takes (AtDisp false) G r checks x = None /\ takes (AtDisp false) G r checks (whole (AtDisp false) e) = Some (Some 6).
Proof. exact sum_refuted. Qed.
Print Assumptions C68_compile_refuted.
(** call (100 / u) with u: u64 = 2^64 - 5. *)
Theorem C68_call_refuted : exists ts e x G r, reads ts e /\ reads (code AtCall ts) x /\ typed G r /\
  forall checks, takes AtCall G r checks x = Some (Some (-20)) /\ takes AtCall G r checks (whole AtCall e) = Some (Some 0).
Proof. exact call_refuted. Qed.
Print Assumptions C68_call_refuted.

(** k: i32 = -7, i: usize = 3, n: i64 = 2^32 + 5. *)
Example C68_case : typed Gd rd /\ does (AtDisp false) "k * 4 + 2" = Some (Some (-26)) /\ meant (AtDisp false) "k * 4 + 2" = Some (Some (-26)) /\
  does (AtDisp true) "(i + 1) as i32" = Some (Some (-4)) /\ meant (AtDisp true) "(i + 1) as i32" = Some (Some (-4)) /\
  does AtImm "100 / n" = Some (Some 0) /\ does AtCall "n - 3" = Some (Some 4294967298) /\ meant AtCall "n - 3" = Some (Some 4294967298).
Proof. exact (conj typed_d (conj eq_refl (conj eq_refl (conj eq_refl (conj eq_refl (conj eq_refl (conj eq_refl eq_refl))))))). Qed.
Example C68_case_ring : reads (toks "4 + 8 * i") ring_ok_e /\ kind_of Gd ring_ok_e = KTy Usize /\
  Forall (fun y => (exists z, fst y = XLit z) /\ ring (snd y)) (lefts ring_ok_e) /\
  does (AtDisp false) "4 + 8 * i" = Some (Some 28) /\ meant (AtDisp false) "4 + 8 * i" = Some (Some 28) /\
  does (AtDisp false) "8 * i + 4" = None /\ meant (AtDisp false) "8 * i + 4" = Some (Some 28).
Proof. exact (conj ring_reads (conj eq_refl (conj ring_lefts (conj eq_refl (conj eq_refl (conj eq_refl eq_refl)))))). Qed.
Example C68_case_reading : does (AtDisp false) "k < 3" = None /\ meant (AtDisp false) "k < 3" = Some (Some 1) /\
  does (AtDisp false) "k + n" = Some (Some (-2)) /\ meant (AtDisp false) "k + n" = None.
Proof. exact (conj eq_refl (conj eq_refl (conj eq_refl eq_refl))). Qed.
(** The ranges of the types (x86-64). *)
Example C68_types : map (fun t => (in_ty t (-1), in_ty t 127, in_ty t 255, in_ty t 32767, in_ty t (2 ^ 31), in_ty t (2 ^ 63 - 1), in_ty t (2 ^ 64 - 1), wrap t (2 ^ 64 - 2), wrap t 200))
    [I8; I16; I32; I64; Isize; U8; U16; U32; U64; Usize] =
  [(true, true, false, false, false, false, false, -2, -56); (true, true, true, true, false, false, false, -2, 200);
   (true, true, true, true, false, false, false, -2, 200); (true, true, true, true, true, true, false, -2, 200); (true, true, true, true, true, true, false, -2, 200);
   (false, true, true, false, false, false, false, 254, 200); (false, true, true, true, false, false, false, 2 ^ 16 - 2, 200);
   (false, true, true, true, true, false, false, 2 ^ 32 - 2, 200); (false, true, true, true, true, true, true, 2 ^ 64 - 2, 200); (false, true, true, true, true, true, true, 2 ^ 64 - 2, 200)].
Proof. reflexivity. Qed.
