(** Proof layer: every encoder call, and every block of generated code, appends a
    list of items at the cursor and then returns or panics. *)
From Verif Require Import Base ModelMem ModelEnc ModelSyntax ModelMacro.

Inductive item :=
| IB (b : Z)
| IW (v : Z)
| IL (v : Z)
| IQ (v : Z)
| IRel (bytewise : bool) (l : label) (off : Z).   (* save_reloc, then 4 zero bytes *)

Definition emit_item (i : item) : M unit :=
  match i with
  | IB b => emitb b
  | IW v => emitw v
  | IL v => emitl v
  | IQ v => emitq v
  | IRel bytewise l off =>
      save_reloc l off ;; (if bytewise then emit [0; 0; 0; 0] else emitl 0)
  end.
Definition emit_items (l : list item) : M unit := forM l emit_item.

Definition trace := (list item * option panic)%type.
Definition tret : trace := ([], None).
Definition tfail (e : panic) : trace := ([], Some e).
Definition titem (i : item) : trace := ([i], None).
Definition tbytes (bs : list Z) : trace := (map IB bs, None).
Definition tseq (a b : trace) : trace :=
  match snd a with
  | Some e => (fst a, Some e)
  | None => (fst a ++ fst b, snd b)
  end.
Definition tassert (b : bool) : trace := if b then tret else tfail AssertFailed.

Definition run_trace (t : trace) : M unit :=
  emit_items (fst t) ;; match snd t with None => ret tt | Some e => fail e end.

(** Pointwise equality of computations. *)
Definition meq {A} (m n : M A) : Prop := forall s, m s = n s.
Infix "≈" := meq (at level 70).

Lemma meq_refl {A} (m : M A) : m ≈ m. Proof. intro; reflexivity. Qed.
Lemma meq_sym {A} (m n : M A) : m ≈ n -> n ≈ m. Proof. intros H s; symmetry; apply H. Qed.
Lemma meq_trans {A} (m n o : M A) : m ≈ n -> n ≈ o -> m ≈ o.
Proof. intros H K s; rewrite H; apply K. Qed.
Lemma bind_meq {A B} (m n : M A) (f g : A -> M B) :
  m ≈ n -> (forall a, f a ≈ g a) -> bind m f ≈ bind n g.
Proof. intros H K s. unfold bind. rewrite H. destruct (n s); [apply K | reflexivity]. Qed.
Lemma bind_assoc {A B C} (m : M A) (f : A -> M B) (g : B -> M C) :
  bind (bind m f) g ≈ bind m (fun a => bind (f a) g).
Proof. intros s. unfold bind. destruct (m s); reflexivity. Qed.
Lemma bind_ret_r (m : M unit) : bind m (fun _ => ret tt) ≈ m.
Proof. intros s. unfold bind, ret. destruct (m s) as [[]|]; reflexivity. Qed.
Lemma bind_ret_l {A B} (a : A) (f : A -> M B) : bind (ret a) f ≈ f a.
Proof. intro; reflexivity. Qed.
Lemma bind_fail {A B} e (f : A -> M B) : bind (fail e) f ≈ fail e.
Proof. intro; reflexivity. Qed.

Lemma forM_app {A} (f : A -> M unit) l1 l2 : forM (l1 ++ l2) f ≈ bind (forM l1 f) (fun _ => forM l2 f).
Proof.
  induction l1 as [|x l IH]; cbn [app forM].
  - intro s; reflexivity.
  - eapply meq_trans; [apply bind_meq; [apply meq_refl|intro; apply IH]|].
    apply meq_sym, bind_assoc.
Qed.

Lemma run_tret : run_trace tret ≈ ret tt. Proof. intro; reflexivity. Qed.
Lemma run_tfail e : run_trace (tfail e) ≈ fail e. Proof. intro; reflexivity. Qed.
Lemma run_titem i : run_trace (titem i) ≈ emit_item i.
Proof. intro s. unfold run_trace, titem; cbn [fst snd emit_items forM].
  rewrite bind_ret_r. unfold emit_items; cbn [forM]. rewrite bind_ret_r. reflexivity. Qed.
Lemma run_tseq a b : run_trace (tseq a b) ≈ bind (run_trace a) (fun _ => run_trace b).
Proof.
  destruct a as [la [e|]], b as [lb pb]; unfold tseq, run_trace; cbn [fst snd].
  - apply meq_sym. eapply meq_trans; [apply bind_assoc|].
    apply bind_meq; [apply meq_refl|]. intro; apply bind_fail.
  - unfold emit_items. eapply meq_trans; [apply bind_meq; [apply forM_app|intro; apply meq_refl]|].
    eapply meq_trans; [apply bind_assoc|]. apply meq_sym. eapply meq_trans; [apply bind_assoc|].
    apply bind_meq; [apply meq_refl|]. intros []. intro s; reflexivity.
Qed.
Lemma run_tassert b : run_trace (tassert b) ≈ assert b.
Proof. destruct b; intro; reflexivity. Qed.
Lemma run_tbytes bs : run_trace (tbytes bs) ≈ emit bs.
Proof.
  unfold run_trace, tbytes, emit; cbn [fst snd].
  eapply meq_trans; [apply bind_ret_r|].
  unfold emit_items. induction bs as [|b r IH]; cbn [map forM].
  - apply meq_refl.
  - apply bind_meq; [apply meq_refl | intro; apply IH].
Qed.

(** [m] behaves as trace [t]. *)
Definition acts (m : M unit) (t : trace) : Prop := m ≈ run_trace t.
Lemma acts_ret : acts (ret tt) tret. Proof. apply meq_sym, run_tret. Qed.
Lemma acts_fail e : acts (fail e) (tfail e). Proof. apply meq_sym, run_tfail. Qed.
Lemma acts_bind m n a b : acts m a -> acts n b -> acts (bind m (fun _ => n)) (tseq a b).
Proof. intros H K. eapply meq_trans; [|apply meq_sym, run_tseq]. apply bind_meq; [exact H|intro; exact K]. Qed.
Lemma acts_assert b : acts (assert b) (tassert b). Proof. apply meq_sym, run_tassert. Qed.
Lemma acts_emit bs : acts (emit bs) (tbytes bs). Proof. apply meq_sym, run_tbytes. Qed.
Lemma acts_b v : acts (emitb v) (titem (IB v)). Proof. apply meq_sym, (run_titem (IB v)). Qed.
Lemma acts_w v : acts (emitw v) (titem (IW v)). Proof. apply meq_sym, (run_titem (IW v)). Qed.
Lemma acts_l v : acts (emitl v) (titem (IL v)). Proof. apply meq_sym, (run_titem (IL v)). Qed.
Lemma acts_q v : acts (emitq v) (titem (IQ v)). Proof. apply meq_sym, (run_titem (IQ v)). Qed.
Lemma acts_rel l off : acts (save_reloc l off ;; emitl 0) (titem (IRel false l off)).
Proof. apply meq_sym, (run_titem (IRel false l off)). Qed.
Lemma acts_rel4 l off : acts (save_reloc l off ;; emit [0; 0; 0; 0]) (titem (IRel true l off)).
Proof. apply meq_sym, (run_titem (IRel true l off)). Qed.
Lemma acts_if (b : bool) m n t u : acts m t -> acts n u -> acts (if b then m else n) (if b then t else u).
Proof. destruct b; auto. Qed.

#[global] Hint Resolve acts_ret acts_fail acts_bind acts_assert acts_emit acts_b acts_w acts_l acts_q
  acts_rel acts_rel4 acts_if : acts.

(** ** Traces of the encoder *)
Definition t_modrm (mm : modrm_mode) (m : mode) (b : reg) : trace :=
  let b' := match m with
            | MReg => b
            | MInd ScaleNone _ => b
            | MInd _ _ => 4
            end in
  let md := mode_encode m in
  let r := match mm with ModDigit d => d | ModReg r => r end in
  titem (IB (Z.lor (Z.lor (u8 (Z.shiftl md 6)) (Z.shiftl (Z.land r 7) 3)) (Z.land b' 7))).
Definition t_rexw (r b i : reg) (m : mode) : trace := titem (IB (rex_bits 72 r b i)).
Definition t_rex (r b i : reg) (m : mode) : trace := titem (IB (rex_bits 64 r b i)).
Definition t_rex_none (r b i : reg) (m : mode) : trace :=
  if (7 <? r) || (7 <? b) || (7 <? i) then t_rex r b i m else tret.
Definition t_rex_none_byte (r b i : reg) (m : mode) : trace :=
  if (7 <? r) || (7 <? b) || (7 <? i) then t_rex r b i m
  else if (3 <? r) || ((3 <? b) && mode_is_reg m) then t_rex 0 0 0 m
  else tret.
Definition t_op_with_rd (op : Z) (r : reg) : trace := titem (IB (Z.lor op (Z.land r 7))).
Definition t_sib (k : Z) (i b : reg) : trace :=
  tseq (tassert (k <? 4)) (tseq (tassert (i <? 16))
    (titem (IB (Z.lor (Z.lor (Z.shiftl k 6) (Z.shiftl (Z.land i 7) 3)) (Z.land b 7))))).
Definition t_disp (d : disp) (i : imm) : trace :=
  match d with
  | D8 d => titem (IB (u8 d))
  | D32 d => titem (IL (u32 d))
  | DLabel l => titem (IRel false l (4 + imm_offset i))
  | DispNone => tret
  end.
Definition t_imm (i : imm) : trace :=
  match i with
  | ImmNone => tret
  | ImmB b => titem (IB (u8 b))
  | ImmW w => titem (IW (u16 w))
  | ImmL l => titem (IL (u32 l))
  | ImmQ q => titem (IQ (u64 q))
  end.
Definition t_disp_imm (d : disp) (i : imm) : trace := tseq (t_disp d i) (t_imm i).
Definition t_rex_fn (rx : rexkind) : reg -> reg -> reg -> mode -> trace :=
  match rx with REXW => t_rexw | RexNone => t_rex_none | RexByte => t_rex_none_byte end.
Definition t_encode (op : list Z) (rx : rexkind) (mm : modrm_mode) (r : rm) (i : imm) : trace :=
  let rg := match mm with ModDigit _ => 0 | ModReg r => r end in
  let rexf := t_rex_fn rx in
  tseq (tassert (negb (is_rip rg)))
  (if is_rip (rm_base r) then
    match rip_ind_from r with
    | None => tfail Unimplemented
    | Some r' =>
        tseq (rexf rg (rm_base r') 0 (rm_mode r'))
        (tseq (tbytes op)
        (tseq (t_modrm mm (MInd ScaleNone DispNone) (rm_base r'))
              (t_disp_imm (mode_disp (rm_mode r')) i)))
    end
  else if negb (mode_is_reg (rm_mode r)) && (Z.land (rm_base r) 7 =? 4) then
    match rm_mode r with
    | MInd sc d =>
        let '(k, idx) := match sc with ScaleNone => (0, 4) | S1 k idx => (k, idx) end in
        let b := rm_base r in
        tseq (rexf rg b idx (rm_mode r))
        (tseq (tbytes op)
        (tseq (t_modrm mm (rm_mode r) b)
        (tseq (t_sib k idx b)
              (t_disp_imm d i))))
    | MReg => tfail Unimplemented
    end
  else if is_indirect_no_disp (rm_mode r) && (Z.land (rm_base r) 7 =? 5) then
    let sc := mode_scale (rm_mode r) in
    tseq (rexf rg (rm_base r) (scale_index sc) (rm_mode r))
    (let m := MInd sc (D8 0) in
     tseq (tbytes op)
     (tseq (t_modrm mm m (rm_base r))
     (tseq (match sc with ScaleNone => tret | S1 k idx => t_sib k idx (rm_base r) end)
           (t_disp_imm (mode_disp m) i))))
  else
    tseq (rexf rg (rm_base r)
      (match rm_mode r with
       | MReg => 0
       | MInd ScaleNone _ => 0
       | MInd (S1 _ idx) _ => idx
       end) (rm_mode r))
    (tseq (tbytes op)
    (tseq (t_modrm mm (rm_mode r) (rm_base r))
    (tseq (match rm_mode r with
           | MReg => tret
           | MInd ScaleNone _ => tret
           | MInd (S1 k idx) _ => t_sib k idx (rm_base r)
           end)
          (t_disp_imm (mode_disp (rm_mode r)) i))))).

Lemma acts_modrm mm m b : acts (modrm mm m b) (t_modrm mm m b).
Proof. apply acts_b. Qed.
Lemma acts_rexfn rx r b i m : acts (rex_fn rx r b i m) (t_rex_fn rx r b i m).
Proof.
  destruct rx; cbn [rex_fn t_rex_fn]; unfold rexw, rex_none, rex_none_byte, t_rexw, t_rex_none, t_rex_none_byte;
    repeat first [apply acts_if | apply acts_b | apply acts_ret].
Qed.
Lemma acts_sib k i b : acts (sib k i b) (t_sib k i b).
Proof. unfold sib, t_sib. auto with acts. Qed.
Lemma acts_disp_imm d i : acts (emit_disp_imm d i) (t_disp_imm d i).
Proof.
  unfold emit_disp_imm, t_disp_imm. apply acts_bind.
  - destruct d; cbn [t_disp]; auto with acts.
  - destruct i; cbn [t_imm]; auto with acts.
Qed.
#[global] Hint Resolve acts_modrm acts_rexfn acts_sib acts_disp_imm : acts.

Lemma acts_encode op rx mm r i : acts (encode op rx mm r i) (t_encode op rx mm r i).
Proof.
  unfold encode, t_encode. apply acts_bind; [apply acts_assert|].
  apply acts_if.
  { destruct (rip_ind_from r); [|apply acts_fail]. auto 10 with acts. }
  apply acts_if.
  { destruct (rm_mode r) as [|sc d]; [apply acts_fail|].
    destruct sc as [|k idx]; auto 10 with acts. }
  apply acts_if.
  { apply acts_bind; [apply acts_rexfn|]. apply acts_bind; [apply acts_emit|].
    apply acts_bind; [apply acts_modrm|]. apply acts_bind; [|apply acts_disp_imm].
    destruct (mode_scale (rm_mode r)); auto with acts. }
  apply acts_bind; [apply acts_rexfn|]. apply acts_bind; [apply acts_emit|].
  apply acts_bind; [apply acts_modrm|]. apply acts_bind; [|apply acts_disp_imm].
  destruct (rm_mode r) as [|[|k idx] d]; auto with acts.
Qed.
#[global] Hint Resolve acts_encode : acts.

Definition t_enc_o (op : Z) (r : reg) : trace :=
  tseq (tassert (negb (is_rip r))) (tseq (t_rex_none 0 r 0 MReg) (t_op_with_rd op r)).
Definition t_enc_oi_byte (op : Z) (r : reg) : trace :=
  tseq (tassert (negb (is_rip r))) (tseq (t_rex_none_byte 0 r 0 MReg) (t_op_with_rd op r)).
Definition t_enc_rexw_o (op : Z) (r : reg) : trace :=
  tseq (tassert (negb (is_rip r))) (tseq (t_rexw 0 r 0 MReg) (t_op_with_rd op r)).
Definition t_enc_d (op : list Z) (l : label) : trace :=
  tseq (tbytes op) (titem (IRel false l 4)).
Definition t_enc_digit_imm_byte (op : list Z) (op_al : Z) (r : rm) (digit : Z) (i : imm) : trace :=
  if rm_is_rax r then tseq (titem (IB op_al)) (t_disp_imm DispNone i)
  else if rm_is_reg r then t_encode op RexByte (ModDigit digit) r i
  else t_encode op RexNone (ModDigit digit) r i.

Lemma acts_enc_o op r : acts (enc_o op r) (t_enc_o op r).
Proof. unfold enc_o, t_enc_o. apply acts_bind; [apply acts_assert|]. apply acts_bind; [|apply acts_b].
  apply (acts_rexfn RexNone). Qed.
Lemma acts_enc_oi op r : acts (enc_oi op r) (t_enc_o op r).
Proof. apply acts_enc_o. Qed.
Lemma acts_enc_oi_byte op r : acts (enc_oi_byte op r) (t_enc_oi_byte op r).
Proof. unfold enc_oi_byte, t_enc_oi_byte. apply acts_bind; [apply acts_assert|]. apply acts_bind; [|apply acts_b].
  apply (acts_rexfn RexByte). Qed.
Lemma acts_enc_rexw_o op r : acts (enc_rexw_o op r) (t_enc_rexw_o op r).
Proof. unfold enc_rexw_o, t_enc_rexw_o. apply acts_bind; [apply acts_assert|]. apply acts_bind; [|apply acts_b].
  apply (acts_rexfn REXW). Qed.
Lemma acts_enc_d op l : acts (enc_d op l) (t_enc_d op l).
Proof. unfold enc_d, t_enc_d. apply acts_bind; [apply acts_emit|]. apply acts_rel. Qed.
Lemma acts_enc_digit_imm_byte op al r d i :
  acts (enc_digit_imm_byte op al r d i) (t_enc_digit_imm_byte op al r d i).
Proof. unfold enc_digit_imm_byte, t_enc_digit_imm_byte. auto 10 with acts. Qed.

(** ** Traces of generated code *)
Section TExec.
Variable ev : list tok -> env -> Z.
Variable lenv : string -> label.
Notation run_reg := (run_reg ev).
Notation run_rm := (run_rm ev lenv).
Notation eval := (eval ev).

Definition t_call (r : env) (c : gcall) : option trace :=
  match c with
  | GBindLabel _ => None
  | GEmit bs => Some (tbytes bs)
  | GEmitb b => Some (titem (IB b))
  | GEmitbExpr e => Some (titem (IB (eval r e)))
  | GEmitqLit v => Some (titem (IQ (u64 v)))
  | GEmitl v => Some (titem (IL v))
  | GEmitbImm => Some (titem (IB (u8 (the_imm r))))
  | GEmitwImm => Some (titem (IW (u16 (the_imm r))))
  | GEmitlImm => Some (titem (IL (u32 (the_imm r))))
  | GEmitqImm => Some (titem (IQ (u64 (the_imm r))))
  | GEncO op g => Some (t_enc_o op (run_reg r g))
  | GEncOi op g => Some (t_enc_o op (run_reg r g))
  | GEncOiByte op g => Some (t_enc_oi_byte op (run_reg r g))
  | GEncRexwO op g => Some (t_enc_rexw_o op (run_reg r g))
  | GEncMi op x i => Some (t_encode [op] RexNone (ModReg 0) (run_rm r x) (run_imm r i))
  | GEncRexwMi op x i => Some (t_encode [op] REXW (ModReg 0) (run_rm r x) (run_imm r i))
  | GEncMiByte op x i => Some (t_encode [op] RexByte (ModReg 0) (run_rm r x) (run_imm r i))
  | GEncMr op g x => Some (t_encode op RexNone (ModReg (run_reg r g)) (run_rm r x) ImmNone)
  | GEncMrByte op g x => Some (t_encode op RexByte (ModReg (run_reg r g)) (run_rm r x) ImmNone)
  | GEncRexwMr op g x => Some (t_encode op REXW (ModReg (run_reg r g)) (run_rm r x) ImmNone)
  | GEncMByte op x => Some (t_encode op RexByte (ModReg 0) (run_rm r x) ImmNone)
  | GEncD op ident => Some (t_enc_d op (lenv ident))
  | GEncDigit op x d => Some (t_encode op RexNone (ModDigit d) (run_rm r x) ImmNone)
  | GEncDigitImm op x d i => Some (t_encode op RexNone (ModDigit d) (run_rm r x) (run_imm r i))
  | GEncDigitImmByte op al x d i => Some (t_enc_digit_imm_byte op al (run_rm r x) d (run_imm r i))
  | GEncRexwDigit op x d i => Some (t_encode op REXW (ModDigit d) (run_rm r x) (run_imm r i))
  | GSaveReloc _ _ => None
  end.

(** [None]: the code binds a label or registers a relocation on its own. *)
Fixpoint t_exec (r : env) (g : gcode) : option trace :=
  match g with
  | GNil => Some tret
  | GDo (GSaveReloc x off) k0 =>
      match k0 with
      | GDo (GEmitl 0) k =>
          match t_exec r k with
          | Some t => Some (tseq (titem (IRel false (lenv x) off)) t)
          | None => None
          end
      | _ => None
      end
  | GDo c k =>
      match t_call r c, t_exec r k with
      | Some a, Some b => Some (tseq a b)
      | _, _ => None
      end
  | GLetImm e k => t_exec (env_set "imm" (i64 (eval r e)) r) k
  | GIf c t e k =>
      let '(b, r') := run_cond ev r c in
      match (if b then t_exec r' t else t_exec r e), t_exec r k with
      | Some a, Some b => Some (tseq a b)
      | _, _ => None
      end
  | GPanic => Some (tfail ImmRange)
  end.

(** The environment at the end of a block. *)
Fixpoint env_after (r : env) (g : gcode) : env :=
  match g with
  | GNil => r
  | GDo _ k => env_after r k
  | GLetImm e k => env_after (env_set "imm" (i64 (eval r e)) r) k
  | GIf _ _ _ k => env_after r k
  | GPanic => r
  end.

Lemma acts_call r c t : t_call r c = Some t -> acts (run_call ev lenv r c) t.
Proof.
  destruct c; cbn [t_call run_call]; intro H; inversion H; subst; clear H;
    first [apply acts_emit | apply acts_b | apply acts_w | apply acts_l | apply acts_q
          | apply acts_enc_o | apply acts_enc_oi_byte | apply acts_enc_rexw_o
          | apply acts_encode | apply acts_enc_d | apply acts_enc_digit_imm_byte].
Qed.

Lemma exec_trace g : forall r t, t_exec r g = Some t ->
  exec ev lenv r g ≈ bind (run_trace t) (fun _ => ret (env_after r g)).
Proof.
  assert (Hgen : forall c k r t, (forall r t, t_exec r k = Some t ->
             exec ev lenv r k ≈ bind (run_trace t) (fun _ => ret (env_after r k))) ->
            match t_call r c, t_exec r k with Some a, Some b => Some (tseq a b) | _, _ => None end = Some t ->
            exec ev lenv r (GDo c k) ≈ bind (run_trace t) (fun _ => ret (env_after r (GDo c k)))).
  { intros c k r t IH H.
    destruct (t_call r c) as [a|] eqn:Ea; [|discriminate].
    destruct (t_exec r k) as [b|] eqn:Eb; [|discriminate]. inversion H; subst; clear H.
    cbn [exec env_after].
    eapply meq_trans; [apply bind_meq; [apply (acts_call _ _ _ Ea) | intro; apply (IH _ _ Eb)]|].
    eapply meq_trans; [apply meq_sym, bind_assoc|].
    apply bind_meq; [apply meq_sym, run_tseq | intro; apply meq_refl]. }
  induction g as [|c k IH|e k IH|c t1 IHt e1 IHe k IH|]; intros r t H.
  - inversion H. intro; reflexivity.
  - destruct c; try (apply Hgen; [exact IH | exact H]).
    (* GSaveReloc *)
    cbn [t_exec] in H. destruct k as [|c2 k2| | |]; try discriminate.
    destruct c2; try discriminate.
    destruct v; try discriminate.
    destruct (t_exec r k2) as [b|] eqn:Eb; [|discriminate]. inversion H; subst; clear H.
    assert (IH2 := IH r (tseq (titem (IL 0)) b)).
    cbn [exec run_call env_after].
    cbn [t_exec t_call] in IH2. rewrite Eb in IH2. specialize (IH2 eq_refl).
    cbn [exec run_call env_after] in IH2.
    eapply meq_trans; [apply bind_meq; [apply meq_refl|intro; apply IH2]|].
    eapply meq_trans; [apply bind_meq; [apply meq_refl|intro; apply bind_meq; [apply run_tseq|intro; apply meq_refl]]|].
    apply meq_sym. eapply meq_trans; [apply bind_meq; [apply run_tseq|intro; apply meq_refl]|].
    eapply meq_trans; [apply bind_meq; [apply bind_meq; [apply run_titem|intro; apply meq_refl]|intro; apply meq_refl]|].
    cbn [emit_item].
    intro s. unfold bind. destruct (save_reloc (lenv ident) offset s); [|reflexivity].
    rewrite (run_titem (IL 0) _). reflexivity.
  - cbn [t_exec exec env_after] in *. apply IH; exact H.
  - cbn [t_exec exec env_after] in *. destruct (run_cond ev r c) as [bb r'].
    destruct (if bb then t_exec r' t1 else t_exec r e1) as [a|] eqn:Ea; [|discriminate].
    destruct (t_exec r k) as [b|] eqn:Eb; [|discriminate]. inversion H; subst; clear H.
    assert (Hc : exists r'', (if bb then exec ev lenv r' t1 else exec ev lenv r e1)
                 ≈ bind (run_trace a) (fun _ => ret r'')).
    { destruct bb; eexists; [apply IHt | apply IHe]; exact Ea. }
    destruct Hc as [r'' Hc].
    eapply meq_trans; [apply bind_meq; [exact Hc|intro; apply (IH _ _ Eb)]|].
    eapply meq_trans; [apply bind_assoc|].
    apply meq_sym. eapply meq_trans; [apply bind_meq; [apply run_tseq|intro; apply meq_refl]|].
    eapply meq_trans; [apply bind_assoc|]. apply bind_meq; [apply meq_refl|].
    intros []. intro; reflexivity.
  - inversion H. intro; reflexivity.
Qed.
End TExec.

(** All code generated for an instruction other than a label definition has a trace. *)
Lemma compile_has_trace ev lenv i g r : compile i = Some g ->
  match i with ILabel _ => False | _ => True end -> exists t, t_exec ev lenv r g = Some t.
Proof.
  Local Ltac dm := repeat match goal with
    | H : context [match ?x with _ => _ end] |- _ => destruct x; try discriminate
    end.
  intros H Hi. destruct i; try contradiction; cbn [compile] in H;
  try (unfold binary_op, binary_opq, binary_opl, binary_opw, binary_opb, shift_op, divide_op, binary_sd_op,
         push_pop, count_op, xchg, testq, testb, movq, movl, movw, movb in H);
  dm; inversion H; subst; clear H; cbn [t_exec t_call g1 g2 run_cond];
  repeat (match goal with |- context [if ?b then _ else _] => destruct b end; cbn [t_exec t_call g1 g2 run_cond]);
  try congruence; eexists; reflexivity.
Qed.
