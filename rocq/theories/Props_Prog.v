(** Properties C08, C25, C31, C34: whole blocks of assembled code.
    [step (OAsm ev lenv r body) s]: the expansion of monoasm!(jit, body) where the caller's
    variables are [r] and its labels [lenv].  [linked ops s1 l]: the address of label [l]
    at the first finalize of [ops] after which it is bound. *)
From Verif Require Import Base ModelMem ModelEnc ModelSyntax ModelMacro SpecX86 SpecAsm SpecState SpecHist EncRefute MemDemo SpecProg ProgExec ProgSim ProgSplit ProgDemo.
Open Scope list_scope. Open Scope Z_scope.

(** ** C08.  Missing from the full statement: cvttsd2siq, roundpd with a label operand
    (wrong, see the refutations), operands that are not encodable, and expressions that
    mention a variable called imm. *)
Theorem C08_partial : forall ev lenv r body s o s1 ops s4 target,
  reached s -> Forall (plain ev r) body -> step (OAsm ev lenv r body) s = Ok o s1 -> forallb api ops = true -> run ops s1 = Some s4 ->
  (forall x, In x (body_labels body) -> linked ops s1 (lenv x) = Some (target x)) ->
  exists marks, listing (denote (eval ev r)) target s4 (cur s) marks body /\ hd_error marks = Some (cursor s) /\ last marks 0 = cursor s1.
Proof. exact block_listing. Qed.
Print Assumptions C08_partial.
Theorem C08_refuted : exists ev lenv r body s o s1, reached s /\ Forall (ordinary ev r) body /\ body_labels body = [] /\ step (OAsm ev lenv r body) s = Ok o s1 /\
  forall target marks, hd_error marks = Some (cursor s) -> last marks 0 = cursor s1 -> ~ listing (denote (eval ev r)) target s1 (cur s) marks body.
Proof. exact listing_cvt. Qed.
Print Assumptions C08_refuted.
Example C08_case : bytes sG4 P0 1 46 =
  [0x48; 0xb8; 0; 0; 0; 0; 0; 0; 0; 0;  0x48; 0x83; 0xc0; 3;  0x48; 0x83; 0xf8; 10;  0x0f; 0x8d; 13; 0; 0; 0;
   0xe9; 0xed; 0xff; 0xff; 0xff;  7; 0; 0; 0; 0; 0; 0; 0;  0xf2; 0x0f; 0x10; 5; 2; 0; 0; 0;  0xc3].
Proof. exact case08. Qed.

(** ** C34.  [sem] is any meaning of instructions that gives the two spellings of xchg
    the same meaning.  Missing: as in C08. *)
Theorem C34_partial : forall mstate sem ev lenv r body s o s1 ops s4 target,
  (forall x y next st, same_ins x y -> sem x next st = sem y next st) ->
  reached s -> Forall (plain ev r) body -> step (OAsm ev lenv r body) s = Ok o s1 -> forallb api ops = true -> run ops s1 = Some s4 ->
  (forall x, In x (body_labels body) -> linked ops s1 (lenv x) = Some (target x)) -> own_labels lenv body s ops ->
  exists marks, listing (denote (eval ev r)) target s4 (cur s) marks body /\ hd_error marks = Some (cursor s) /\ last marks 0 = cursor s1 /\
    forall n k st, (k <= List.length body)%nat ->
      same_run mstate sem (denote (eval ev r)) target (fun k => addr s4 (cur s) (nth k marks 0)) body (mem s4) n k st.
Proof. exact program_runs. Qed.
Print Assumptions C34_partial.
Theorem C34_refuted : exists mstate sem ev lenv r body s o s1, (forall x y next st, same_ins x y -> sem x next st = sem y next st) /\
  reached s /\ Forall (ordinary ev r) body /\ body_labels body = [] /\ defined body = [] /\ step (OAsm ev lenv r body) s = Ok o s1 /\
  exists st, forall target marks, hd_error marks = Some (cursor s) ->
    ~ same_run mstate sem (denote (eval ev r)) target (fun k => addr s1 (cur s) (nth k marks 0)) body (mem s1) 1 0 st.
Proof. exact run_cvt. Qed.
Print Assumptions C34_refuted.
(** The hypotheses hold of a program with a loop, a forward branch, a datum and a constant;
    its interpreter and the machine agree. *)
Example C34_case : reached sG /\ Forall (plain evD rD) prog /\ step opG sG = Ok None sG1 /\ run hG sG1 = Some sG4 /\ own_labels lenvD prog sG hG /\
  (forall x, In x (body_labels prog) -> linked hG sG1 (lenvD x) = Some (targetG x)) /\
  srun (Z * bool) semG (denote (eval evD rD)) targetG atG prog 20 (Stmt 0) (5, false) = Gone 2 0 (12, true) /\
  mrun (Z * bool) semG (mem sG4) 18 (65536 + 1) (5, false) = Some (0, (12, true)).
Proof. exact case34. Qed.

(** ** C31.  One block or several consecutive ones.  Missing: expressions in the later
    blocks that mention a variable called imm. *)
Theorem C31_split_partial : forall ev lenv r a b s, compile_all (a ++ b) <> None -> Forall (blind ev r) b ->
  step (OAsm ev lenv r (a ++ b)) s = bind (step (OAsm ev lenv r a)) (fun _ => step (OAsm ev lenv r b)) s.
Proof. exact block_split. Qed.
Print Assumptions C31_split_partial.
Theorem C31_split_refuted : exists ev lenv r a b s x y o1 o2, reached s /\ compile_all (a ++ b) <> None /\ step (OAsm ev lenv r (a ++ b)) s = Ok o1 x /\
  bind (step (OAsm ev lenv r a)) (fun _ => step (OAsm ev lenv r b)) s = Ok o2 y /\ exists p i, 0 <= i < cursor x /\ byte x p i <> byte y p i.
Proof. exact split_leak. Qed.
Print Assumptions C31_split_refuted.
Example C31_split_case : compile_all prog <> None /\ Forall (blind evD rD) prog /\
  match bind (step (asm (firstn 5 prog))) (fun _ => step (asm (skipn 5 prog))) sG with Ok _ s => bytes s P0 1 46 = bytes sG1 P0 1 46 | Panic _ _ => False end.
Proof. exact case31s. Qed.
(** The same calls on objects allocated at different addresses: the same tables, and if the
    memory had the same contents, the same contents of all pages. *)
Theorem C31_position : forall ops b1 m1 b2 m2, forallb relocatable ops = true -> (forall x, 0 <= x < 3 * PAGE_SIZE -> m2 (b2 + x) = m1 (b1 + x)) ->
  match run ops (jit_new b1 m1), run ops (jit_new b2 m2) with
  | Some s, Some t => same_tables s t /\ forall p i, 0 <= i < PAGE_SIZE -> byte t p i = byte s p i
  | None, None => True
  | _, _ => False
  end.
Proof. exact image_same. Qed.
Print Assumptions C31_position.
(** Without any assumption on the memory: the bytes of every block. *)
Theorem C31_position_block : forall b1 m1 b2 m2 a ev lenv r body b s1 o s2 s3, forallb relocatable a = true -> forallb relocatable b = true ->
  run a (jit_new b1 m1) = Some s1 -> step (OAsm ev lenv r body) s1 = Ok o s2 -> run b s2 = Some s3 ->
  exists t1 t2 t3, run a (jit_new b2 m2) = Some t1 /\ step (OAsm ev lenv r body) t1 = Ok o t2 /\ run b t2 = Some t3 /\
    same_tables s1 t1 /\ same_tables s2 t2 /\ same_tables s3 t3 /\
    forall i, cursor s1 <= i < cursor s2 -> byte t3 (cur s1) i = byte s3 (cur s1) i.
Proof. exact code_same. Qed.
Print Assumptions C31_position_block.
Example C31_position_case : forallb relocatable relG = true /\ forallb relocatable hG = true /\ run relG newD = Some sG /\ step opG sG = Ok None sG1 /\ run hG sG1 = Some sG4 /\
  bytes (the (run (relG ++ opG :: hG) (jit_new 0x7f0000000000 (fun a => a mod 256)))) P0 1 46 = bytes sG4 P0 1 46.
Proof. exact case31. Qed.

(** ** C25.  Every statement of a block does what it does alone in the caller's scope.
    Missing: expressions that mention a variable called imm. *)
Theorem C25_partial : forall ev lenv r a i b s, compile_all (a ++ i :: b) <> None -> Forall (blind ev r) (i :: b) ->
  step (OAsm ev lenv r (a ++ i :: b)) s =
  bind (step (OAsm ev lenv r a)) (fun _ => bind (step (OAsm ev lenv r [i])) (fun _ => step (OAsm ev lenv r b))) s.
Proof. exact block_split3. Qed.
Print Assumptions C25_partial.
(** A variable imm of the caller is shadowed by the expansion of an earlier statement ... *)
Theorem C25_refuted : exists ev lenv r a b s x y o1 o2, reached s /\ compile_all (a ++ b) <> None /\ step (OAsm ev lenv r (a ++ b)) s = Ok o1 x /\
  bind (step (OAsm ev lenv r a)) (fun _ => step (OAsm ev lenv r b)) s = Ok o2 y /\ exists p i, 0 <= i < cursor x /\ byte x p i <> byte y p i.
Proof. exact split_leak. Qed.
Print Assumptions C25_refuted.
(** ... and by the expansion of the statement it occurs in. *)
Theorem C25_same_statement_refuted : exists ev lenv r i g s r' s' x, is_instr i = true /\ wf_operands (eval ev r) i /\ roundpd_u8 ev r i /\ compile i = Some g /\
  exec ev lenv r g s = Ok r' s' /\ denote (eval ev r) (fun _ => 0) i = Some x /\ forall bs, grows s s' bs -> ~ reads_as bs x.
Proof. exact shadow. Qed.
Print Assumptions C25_same_statement_refuted.
