(** The specification decoder inverts the encoder. *)
From Verif Require Import Base ModelMem ModelEnc Trace Emit SpecX86.
Ltac Zify.zify_post_hook ::= Z.div_mod_to_equations.

(** ** Bit fields *)
Definition range (n : nat) : list Z := map Z.of_nat (seq 0 n).
Lemma in_range n z : 0 <= z < Z.of_nat n -> In z (range n).
Proof.
  intros. unfold range. apply in_map_iff. exists (Z.to_nat z). split; [lia|]. apply in_seq. lia.
Qed.

Lemma land7 r : Z.land r 7 = r mod 8.
Proof. change 7 with (Z.ones 3). apply Z.land_ones. lia. Qed.

Lemma fields_lor : forall md d lo, 0 <= md <= 3 -> 0 <= d <= 7 -> 0 <= lo <= 7 ->
  Z.lor (Z.lor (u8 (Z.shiftl md 6)) (Z.shiftl d 3)) lo = 64 * md + 8 * d + lo /\
  Z.lor (Z.lor (Z.shiftl md 6) (Z.shiftl d 3)) lo = 64 * md + 8 * d + lo.
Proof.
  assert (H : forallb (fun md => forallb (fun d => forallb (fun lo =>
     (Z.lor (Z.lor (u8 (Z.shiftl md 6)) (Z.shiftl d 3)) lo =? 64 * md + 8 * d + lo) &&
     (Z.lor (Z.lor (Z.shiftl md 6) (Z.shiftl d 3)) lo =? 64 * md + 8 * d + lo)) (range 8)) (range 8)) (range 4) = true)
    by (vm_compute; reflexivity).
  intros md d lo H1 H2 H3.
  rewrite forallb_forall in H. specialize (H md (in_range 4 md ltac:(lia))).
  rewrite forallb_forall in H. specialize (H d (in_range 8 d ltac:(lia))).
  rewrite forallb_forall in H. specialize (H lo (in_range 8 lo ltac:(lia))).
  lia.
Qed.
Lemma modrm_byte md r b : 0 <= md <= 3 ->
  Z.lor (Z.lor (u8 (Z.shiftl md 6)) (Z.shiftl (Z.land r 7) 3)) (Z.land b 7) = 64 * md + 8 * (r mod 8) + b mod 8.
Proof. intro. rewrite !land7. apply fields_lor; lia. Qed.
Lemma sib_byte md r b : 0 <= md <= 3 ->
  Z.lor (Z.lor (Z.shiftl md 6) (Z.shiftl (Z.land r 7) 3)) (Z.land b 7) = 64 * md + 8 * (r mod 8) + b mod 8.
Proof. intro. rewrite !land7. apply fields_lor; lia. Qed.
Lemma rex_byte fixed r b i : fixed = 64 \/ fixed = 72 -> 0 <= r <= 255 -> 0 <= b <= 255 -> 0 <= i <= 255 ->
  rex_bits fixed r b i = fixed + 4 * ((r / 8) mod 2) + 2 * ((i / 8) mod 2) + (b / 8) mod 2.
Proof.
  intros Hf Hr Hb Hi. unfold rex_bits.
  assert (H8 : forall x, 0 <= x <= 255 -> Z.land x 8 = 8 * ((x / 8) mod 2)).
  { assert (H : forallb (fun x => Z.land x 8 =? 8 * ((x / 8) mod 2)) (range 256) = true) by (vm_compute; reflexivity).
    intros x Hx. rewrite forallb_forall in H. specialize (H x (in_range 256 x ltac:(lia))). lia. }
  rewrite !H8 by assumption.
  assert ((r / 8) mod 2 = 0 \/ (r / 8) mod 2 = 1) as [-> | ->] by lia;
  assert ((b / 8) mod 2 = 0 \/ (b / 8) mod 2 = 1) as [-> | ->] by lia;
  assert ((i / 8) mod 2 = 0 \/ (i / 8) mod 2 = 1) as [-> | ->] by lia;
  destruct Hf as [-> | ->]; reflexivity.
Qed.

(** ** Little-endian fields *)
Lemma unle_le n : forall v, unle (le n v) = v mod 256 ^ Z.of_nat n.
Proof.
  induction n as [|n IH]; intro v.
  - cbn [le unle]. change (256 ^ Z.of_nat 0) with 1. rewrite Z.mod_1_r. reflexivity.
  - cbn [le unle]. rewrite IH. unfold u8. rewrite Nat2Z.inj_succ, Z.pow_succ_r by lia.
    rewrite Z.rem_mul_r; [reflexivity|lia|]. apply Z.pow_pos_nonneg; lia.
Qed.
Lemma signed_mod m v : 0 < m -> signed m (v mod m) = signed m v.
Proof. intro. unfold signed. rewrite Z.mod_mod by lia. reflexivity. Qed.
Lemma take_s_le n v rest : take_s n (le n v ++ rest) = Some (signed (256 ^ Z.of_nat n) v, rest).
Proof.
  unfold take_s. rewrite app_length, le_length. destruct (n <=? n + length rest)%nat eqn:E; [|lia].
  rewrite firstn_app, le_length, Nat.sub_diag, firstn_all2 by (rewrite le_length; lia).
  cbn [firstn]. rewrite app_nil_r, unle_le, signed_mod by (apply Z.pow_pos_nonneg; lia).
  rewrite skipn_app, le_length, Nat.sub_diag, skipn_all2 by (rewrite le_length; lia). reflexivity.
Qed.
Lemma take_u_1 b rest : take_u 1 (u8 b :: rest) = Some (u8 b, rest).
Proof. unfold take_u. cbn [length Nat.leb firstn skipn unle]. f_equal. f_equal. lia. Qed.
Lemma signed_small m v : 0 < m -> m mod 2 = 0 -> - (m / 2) <= v < m / 2 -> signed m v = v.
Proof.
  intros Hm He Hv. unfold signed.
  assert (Hh : m = 2 * (m / 2)) by lia. set (h := m / 2) in *. clearbody h. subst m.
  destruct (Z_lt_ge_dec v 0).
  - assert (E : v mod (2 * h) = v + 2 * h) by (symmetry; apply (Z.mod_unique _ _ (-1)); lia).
    rewrite E. destruct (v + 2 * h <? h) eqn:F; lia.
  - rewrite Z.mod_small by lia. destruct (v <? h) eqn:F; lia.
Qed.
Lemma take_s_1 v rest : in_i8 v = true -> take_s 1 (u8 v :: rest) = Some (v, rest).
Proof.
  intro H. change (u8 v :: rest) with (le 1 v ++ rest). rewrite take_s_le. do 2 f_equal.
  unfold in_i8 in H. apply signed_small; change (256 ^ Z.of_nat 1) with 256; lia.
Qed.
Lemma take_s_4 v rest : in_i32 v = true -> take_s 4 (le 4 (u32 v) ++ rest) = Some (v, rest).
Proof.
  intro H. unfold u32. rewrite le_mod by reflexivity. rewrite take_s_le. do 2 f_equal.
  unfold in_i32 in H. apply signed_small; change (256 ^ Z.of_nat 4) with 4294967296; lia.
Qed.
Lemma take_s_2 v rest : in_i16 v = true -> take_s 2 (le 2 (u16 v) ++ rest) = Some (v, rest).
Proof.
  intro H. unfold u16. rewrite le_mod by reflexivity. rewrite take_s_le. do 2 f_equal.
  unfold in_i16 in H. apply signed_small; change (256 ^ Z.of_nat 2) with 65536; lia.
Qed.
Lemma take_s_8 v rest : in_i64 v = true -> take_s 8 (le 8 (u64 v) ++ rest) = Some (v, rest).
Proof.
  intro H. unfold u64. rewrite le_mod by reflexivity. rewrite take_s_le. do 2 f_equal.
  unfold in_i64 in H. apply signed_small; change (256 ^ Z.of_nat 8) with 18446744073709551616; lia.
Qed.
Lemma take_s_4w v rest : take_s 4 (le 4 (u32 v) ++ rest) = Some (i32 v, rest).
Proof. unfold u32. rewrite le_mod by reflexivity. apply take_s_le. Qed.
Lemma take_s_4f v rest : take_s 4 (le 4 v ++ rest) = Some (i32 v, rest).
Proof. rewrite take_s_le. reflexivity. Qed.
Lemma i64_in v : in_i64 (i64 v) = true.
Proof. unfold in_i64, i64, signed. destruct (_ <? _) eqn:E; lia. Qed.
Lemma i32_in v : in_i32 (i32 v) = true.
Proof. unfold in_i32, i32, signed. destruct (_ <? _) eqn:E; lia. Qed.
Lemma i32_id v : in_i32 v = true -> i32 v = v.
Proof. unfold in_i32, i32. intro. apply signed_small; lia. Qed.

(** ** ModRM parsing by fields *)
Definition parse_fields (r : rexinfo) (md d lo : Z) (t : list Z) : option (modrm_info * list Z) :=
  let mk x := mkModRM (8 * rr r + d) d x in
  if md =? 3 then Some (mk (RmR (8 * rb r + lo)), t)
  else if lo =? 4 then
    match t with
    | [] => None
    | s :: t2 =>
        let idx := 8 * rx r + (s / 8) mod 8 in
        let index := if idx =? 4 then None else Some (idx, 2 ^ (s / 64)) in
        if (s mod 8 =? 5) && (md =? 0) then
          match take_s 4 t2 with
          | Some (d, t3) => Some (mk (RmM (mkMem None index d)), t3)
          | None => None
          end
        else
          match take_disp md t2 with
          | Some (d, t3) => Some (mk (RmM (mkMem (Some (BReg (8 * rb r + s mod 8))) index d)), t3)
          | None => None
          end
    end
  else if (lo =? 5) && (md =? 0) then
    match take_s 4 t with
    | Some (d, t2) => Some (mk (RmM (mkMem (Some BRip) None d)), t2)
    | None => None
    end
  else
    match take_disp md t with
    | Some (d, t2) => Some (mk (RmM (mkMem (Some (BReg (8 * rb r + lo))) None d)), t2)
    | None => None
    end.
Lemma parse_modrm_fields r md d lo t : 0 <= md <= 3 -> 0 <= d <= 7 -> 0 <= lo <= 7 ->
  parse_modrm r ((64 * md + 8 * d + lo) :: t) = parse_fields r md d lo t.
Proof.
  intros. unfold parse_modrm.
  replace ((64 * md + 8 * d + lo) / 64) with md by lia.
  replace (((64 * md + 8 * d + lo) / 8) mod 8) with d by lia.
  replace ((64 * md + 8 * d + lo) mod 8) with lo by lia. reflexivity.
Qed.
Lemma parse_sib r md d k i b t : 0 <= md <= 2 -> 0 <= k <= 3 -> 0 <= i <= 7 -> 0 <= b <= 7 ->
  b <> 5 \/ md <> 0 ->
  parse_fields r md d 4 ((64 * k + 8 * i + b) :: t) =
  match take_disp md t with
  | Some (dd, t3) => Some (mkModRM (8 * rr r + d) d
      (RmM (mkMem (Some (BReg (8 * rb r + b))) (if 8 * rx r + i =? 4 then None else Some (8 * rx r + i, 2 ^ k)) dd)), t3)
  | None => None
  end.
Proof.
  intros. unfold parse_fields.
  destruct (md =? 3) eqn:E; [lia|]. change (4 =? 4) with true. cbv iota.
  replace (((64 * k + 8 * i + b) / 8) mod 8) with i by lia.
  replace ((64 * k + 8 * i + b) / 64) with k by lia.
  replace ((64 * k + 8 * i + b) mod 8) with b by lia.
  destruct ((b =? 5) && (md =? 0)) eqn:F; [lia|]. reflexivity.
Qed.

(** ** Meaning of the encoder's operand values.  [Reg] holds any byte: register
    numbers count modulo 16, except that 16 itself is rip. *)
Definition reg_ok (n : Z) : Prop := 0 <= n <= 255 /\ n <> 16.
Definition disp_ok (d : disp) : Prop :=
  match d with D8 d => in_i8 d = true | _ => True end.
Definition rm_ok (r : rm) : Prop :=
  match rm_mode r with
  | MReg => reg_ok (rm_base r)
  | MInd ScaleNone d => 0 <= rm_base r <= 255 /\ disp_ok d
  | MInd (S1 k i) d => reg_ok (rm_base r) /\ 0 <= k <= 3 /\ 0 <= i <= 15 /\ disp_ok d
  end.
Definition mm_ok (mm : modrm_mode) : Prop :=
  match mm with ModReg r => reg_ok r | ModDigit d => 0 <= d <= 7 end.
Definition mm_reg (mm : modrm_mode) : Z := match mm with ModReg r => r mod 16 | ModDigit d => d end.

Definition disp_val (f : label -> Z) (d : disp) : Z :=
  match d with DispNone => 0 | D8 d => d | D32 d => i32 d | DLabel l => i32 (f l) end.
Definition rm_sem (f : label -> Z) (r : rm) : rmop :=
  match rm_mode r with
  | MReg => RmR (rm_base r mod 16)
  | MInd ScaleNone d =>
      RmM (mkMem (Some (if rm_base r =? 16 then BRip else BReg (rm_base r mod 16))) None (disp_val f d))
  | MInd (S1 k i) d =>
      RmM (mkMem (Some (BReg (rm_base r mod 16))) (if i =? 4 then None else Some (i, 2 ^ k)) (disp_val f d))
  end.

(** The offset of every label field is its distance to the end of the items. *)
Fixpoint rel_ok (l : list item) : Prop :=
  match l with
  | [] => True
  | i :: r => match i with IRel _ _ off => off = 4 + items_len r | _ => True end /\ rel_ok r
  end.
(** The same of all items but a last byte. *)
Definition rel_late (l : list item) : Prop := exists l0 b, l = l0 ++ [IB b] /\ rel_ok l0.

Lemma tseq_none a b la lb : a = (la, None) -> b = (lb, None) -> tseq a b = (la ++ lb, None).
Proof. intros -> ->. reflexivity. Qed.

Lemma tseq_ret_l b : tseq tret b = b. Proof. destruct b; reflexivity. Qed.

(** REX bytes [rb] read as [ri]. *)
Definition rexb_ok (rexb : list Z) (ri : rexinfo) : Prop :=
  rexb = [] /\ ri = no_rex \/
  exists b, rexb = [b] /\ 0x40 <= b <= 0x4f /\
    ri = mkRex true ((b / 8) mod 2 =? 1) ((b / 4) mod 2) ((b / 2) mod 2) (b mod 2).

Definition byte_ok (ri : rexinfo) (n : Z) : Prop := rpresent ri = true \/ n < 4 \/ 7 < n.

Record rexres (rk : rexkind) (rg b i : Z) (m : mode) (rexb : list Z) (ri : rexinfo) : Prop := {
  rr_ok : rexb_ok rexb ri;
  rr_w : rw ri = match rk with REXW => true | _ => false end;
  rr_r : rr ri = (rg / 8) mod 2;
  rr_x : rx ri = (i / 8) mod 2;
  rr_b : rb ri = (b / 8) mod 2;
  rr_byte : rk = RexByte -> byte_ok ri (rg mod 16) /\ (m = MReg -> byte_ok ri (b mod 16))
}.

Lemma rex_sem rk rg b i m : 0 <= rg <= 255 -> 0 <= b <= 255 -> 0 <= i <= 255 ->
  exists rexb ri, t_rex_fn rk rg b i m = (map IB rexb, None) /\ Forall is_byte rexb /\ rexres rk rg b i m rexb ri.
Proof.
  intros Hr Hb Hi.
  assert (Hyes : forall fixed, fixed = 64 \/ fixed = 72 ->
    exists rexb ri, titem (IB (rex_bits fixed rg b i)) = (map IB rexb, None) /\ Forall is_byte rexb /\
      rexb_ok rexb ri /\ rw ri = (fixed =? 72) /\ rr ri = (rg / 8) mod 2 /\ rx ri = (i / 8) mod 2 /\ rb ri = (b / 8) mod 2 /\ rpresent ri = true).
  { intros fixed Hf. exists [rex_bits fixed rg b i]. eexists. split; [reflexivity|].
    rewrite (rex_byte fixed) by assumption.
    set (x := fixed + 4 * ((rg / 8) mod 2) + 2 * ((i / 8) mod 2) + (b / 8) mod 2).
    assert (Hx : 0x40 <= x <= 0x4f) by (unfold x; lia).
    split; [constructor; [unfold is_byte; lia|constructor]|].
    split; [right; exists x; split; [reflexivity|split; [exact Hx|reflexivity]]|].
    cbn [rw rr rx rb rpresent]. unfold x. destruct Hf; subst fixed; repeat split; try lia. }
  assert (Hno : rg <= 7 -> b <= 7 -> i <= 7 -> exists rexb ri, tret = (map IB rexb, None) /\ Forall is_byte rexb /\
      rexb_ok rexb ri /\ rw ri = false /\ rr ri = (rg / 8) mod 2 /\ rx ri = (i / 8) mod 2 /\ rb ri = (b / 8) mod 2 /\ ri = no_rex).
  { intros. exists [], no_rex. split; [reflexivity|]. split; [constructor|]. split; [left; auto|].
    cbn. repeat split; lia. }
  destruct rk; cbn [t_rex_fn].
  - unfold t_rexw. destruct (Hyes 72) as (rexb & ri & E & F & A & W & R & X & B & P); [auto|].
    exists rexb, ri. split; [exact E|]. split; [exact F|]. constructor; auto. discriminate.
  - unfold t_rex_none. destruct ((7 <? rg) || (7 <? b) || (7 <? i)) eqn:C.
    + destruct (Hyes 64) as (rexb & ri & E & F & A & W & R & X & B & P); [auto|].
      exists rexb, ri. split; [exact E|]. split; [exact F|]. constructor; auto. discriminate.
    + destruct Hno as (rexb & ri & E & F & A & W & R & X & B & P); try lia.
      exists rexb, ri. split; [exact E|]. split; [exact F|]. constructor; auto. discriminate.
  - unfold t_rex_none_byte. destruct ((7 <? rg) || (7 <? b) || (7 <? i)) eqn:C.
    + destruct (Hyes 64) as (rexb & ri & E & F & A & W & R & X & B & P); [auto|].
      exists rexb, ri. split; [exact E|]. split; [exact F|]. constructor; auto.
      intros _. unfold byte_ok. auto.
    + destruct ((3 <? rg) || (3 <? b) && mode_is_reg m) eqn:D.
      * exists [64], (mkRex true false 0 0 0). split; [reflexivity|]. split; [repeat constructor; unfold is_byte; lia|].
        constructor; cbn [rw rr rx rb rpresent]; try lia; auto.
        -- right. exists 64. repeat split; lia.
        -- intros _. unfold byte_ok. cbn. auto.
      * destruct Hno as (rexb & ri & E & F & A & W & R & X & B & P); try lia.
        exists rexb, ri. split; [exact E|]. split; [exact F|]. constructor; auto.
        intros _. unfold byte_ok. split; [lia|]. intros ->. cbn [mode_is_reg] in D. lia.
Qed.

(** ** The main encoder lemma *)
Definition imm_items (i : imm) : list item := fst (t_imm i).
Lemma t_imm_none i : t_imm i = (imm_items i, None).
Proof. destruct i; reflexivity. Qed.
Lemma imm_items_len i : items_len (imm_items i) = imm_offset i.
Proof. destruct i; reflexivity. Qed.
Lemma t_disp_none d i : t_disp d i = (fst (t_disp d i), None).
Proof. destruct d; reflexivity. Qed.

Record enc_sem (op : list Z) (rk : rexkind) (mm : modrm_mode) (r : rm) (i : imm) (f : label -> Z)
    (its : list item) (rexb : list Z) (ri : rexinfo) (tail : list Z) : Prop := {
  es_trace : t_encode op rk mm r i = (its, None);
  es_flat : flat f its = rexb ++ map u8 op ++ tail ++ flat f (imm_items i);
  es_rex : rexb_ok rexb ri;
  es_w : rw ri = match rk with REXW => true | _ => false end;
  es_parse : forall rest, parse_modrm ri (tail ++ rest) =
     Some (mkModRM (mm_reg mm) (mm_reg mm mod 8) (rm_sem f r), rest);
  es_byte_r : rk = RexByte -> forall n, mm = ModReg n -> byte_ok ri (n mod 16);
  es_byte_b : rk = RexByte -> rm_mode r = MReg -> byte_ok ri (rm_base r mod 16);
  es_rel : rel_ok its
}.

Lemma flat_bytes f bs : flat f (map IB bs) = map u8 bs.
Proof. induction bs; [reflexivity|]. cbn [map flat flat_map item_bytes app]. f_equal. exact IHbs. Qed.
Lemma map_u8_id bs : Forall is_byte bs -> map u8 bs = bs.
Proof. induction 1; [reflexivity|]. cbn [map]. rewrite u8_id by assumption. f_equal; assumption. Qed.

Lemma rel_ok_bytes bs l : rel_ok l -> rel_ok (map IB bs ++ l).
Proof. induction bs; cbn [map app rel_ok]; auto. Qed.
Lemma rel_ok_disp d i : rel_ok (fst (t_disp d i) ++ imm_items i).
Proof.
  assert (H : rel_ok (imm_items i)) by (destruct i; cbn; auto).
  destruct d; cbn [t_disp fst titem tret app rel_ok]; auto.
  split; [rewrite imm_items_len; lia|exact H].
Qed.

(** displacement bytes read back *)
Lemma disp_bytes f d i rest : disp_ok d ->
  take_disp (match d with DispNone => 0 | D8 _ => 1 | _ => 2 end) (flat f (fst (t_disp d i)) ++ rest)
  = Some (disp_val f d, rest).
Proof.
  intro H. unfold take_disp. destruct d; cbn [t_disp fst titem tret flat flat_map item_bytes app disp_val disp_ok] in *.
  - reflexivity.
  - change (1 =? 1) with true. cbv iota. rewrite u8_u8. apply take_s_1. exact H.
  - change (2 =? 1) with false. change (2 =? 2) with true. cbv iota. rewrite app_nil_r. apply take_s_4w.
  - change (2 =? 1) with false. change (2 =? 2) with true. cbv iota. rewrite app_nil_r. apply take_s_4f.
Qed.

Lemma mm_reg_parts mm : mm_ok mm -> let rg := match mm with ModDigit _ => 0 | ModReg r => r end in
  0 <= rg <= 255 /\ rg <> 16 /\ 8 * ((rg / 8) mod 2) + mm_reg mm mod 8 = mm_reg mm.
Proof. destruct mm; cbn [mm_ok mm_reg]; unfold reg_ok; lia. Qed.

Lemma t_modrm_eq mm m b : t_modrm mm m b =
  titem (IB (64 * mode_encode m + 8 * (mm_reg mm mod 8) + (match m with MInd (S1 _ _) _ => 4 | _ => b end) mod 8)).
Proof.
  unfold t_modrm. rewrite modrm_byte by (destruct m as [|? []]; cbn; lia).
  destruct mm as [g|d]; cbn [mm_reg]; [replace (g mod 16 mod 8) with (g mod 8) by lia|]; destruct m as [|[] ?]; reflexivity.
Qed.
Lemma t_sib_eq k i b : 0 <= k <= 3 -> 0 <= i <= 15 -> t_sib k i b = titem (IB (64 * k + 8 * (i mod 8) + b mod 8)).
Proof.
  intros. unfold t_sib. destruct (k <? 4) eqn:E; [|lia]. destruct (i <? 16) eqn:F; [|lia].
  rewrite sib_byte by lia. reflexivity.
Qed.

Lemma encode_sem op rk mm r i f : mm_ok mm -> rm_ok r ->
  exists its rexb ri tail, enc_sem op rk mm r i f its rexb ri tail.
Proof.
  intros Hmm Hrm.
  destruct (mm_reg_parts mm Hmm) as (Hrg & Hrg16 & Hparts).
  set (rg := match mm with ModDigit _ => 0 | ModReg r => r end) in *.
  (* common assembly *)
  assert (Hgo : forall b idx m tl d,
    0 <= b <= 255 -> 0 <= idx <= 15 -> (rm_mode r = MReg -> m = MReg /\ rm_base r = b) ->
    t_encode op rk mm r i =
      tseq (t_rex_fn rk rg b idx m) (tseq (tbytes op) (map IB tl ++ fst (t_disp d i) ++ imm_items i, None)) ->
    Forall is_byte tl ->
    (forall ri rest, rr ri = (rg / 8) mod 2 -> rx ri = idx / 8 -> rb ri = (b / 8) mod 2 ->
       parse_modrm ri ((tl ++ flat f (fst (t_disp d i))) ++ rest)
       = Some (mkModRM (8 * ((rg / 8) mod 2) + mm_reg mm mod 8) (mm_reg mm mod 8) (rm_sem f r), rest)) ->
    exists its rexb ri tail, enc_sem op rk mm r i f its rexb ri tail).
  { intros b idx m tl d Hb Hi Hm Ht Hby Hp.
    destruct (rex_sem rk rg b idx m Hrg Hb ltac:(lia)) as (rexb & ri & E & Fb & [A W R X B Y]).
    exists (map IB rexb ++ map IB op ++ map IB tl ++ fst (t_disp d i) ++ imm_items i), rexb, ri,
           (tl ++ flat f (fst (t_disp d i))).
    constructor; auto.
    - rewrite Ht, E. reflexivity.
    - rewrite !flat_app, !flat_bytes, (map_u8_id rexb), (map_u8_id tl) by assumption.
      rewrite <- !app_assoc. reflexivity.
    - intro rest. rewrite Hp by (rewrite ?X; try assumption; lia). rewrite Hparts. reflexivity.
    - intros Hk n Hn. apply Y in Hk. destruct Hk as [Hk _]. unfold rg in Hk. rewrite Hn in Hk. exact Hk.
    - intros Hk Hreg. apply Y in Hk. destruct Hk as [_ Hk]. destruct (Hm Hreg) as [Hm1 ->]. apply Hk. exact Hm1.
    - apply rel_ok_bytes, rel_ok_bytes, rel_ok_bytes, rel_ok_disp. }
  assert (Hd : 0 <= mm_reg mm mod 8 <= 7) by lia.
  assert (Hrip : is_rip rg = false) by (unfold is_rip, rip; lia).
  unfold t_encode in *. fold rg in Hgo |- *. rewrite Hrip in *. cbn [negb tassert] in *.
  rewrite tseq_ret_l in *. unfold t_disp_imm in *.
  destruct r as [b m]. cbn [rm_base rm_mode] in *. unfold rm_ok in Hrm; cbn [rm_base rm_mode] in Hrm.
  destruct m as [|sc d].
  { (* register *)
    destruct Hrm as [Hrm Hrm16]. assert (E : is_rip b = false) by (unfold is_rip, rip; lia). rewrite E in *.
    cbn [mode_is_reg negb andb is_indirect_no_disp mode_disp] in *.
    apply (Hgo b 0 MReg [64 * 3 + 8 * (mm_reg mm mod 8) + b mod 8] DispNone); auto; try lia.
    - rewrite t_modrm_eq. rewrite t_imm_none. reflexivity.
    - constructor; [unfold is_byte; lia|constructor].
    - intros ri rest R X B. cbn [t_disp fst tret flat flat_map app].
      rewrite parse_modrm_fields by lia. unfold parse_fields. change (3 =? 3) with true. cbv iota.
      rewrite R, B. unfold rm_sem; cbn [rm_mode rm_base]. do 4 f_equal. lia. }
  destruct sc as [|k idx].
  - destruct Hrm as [Hb Hdok].
    destruct (is_rip b) eqn:Erip.
    + (* rip *)
      assert (Hb16 : b = 16) by (unfold is_rip, rip in Erip; lia). subst b.
      set (d' := match d with D8 x => D32 x | DispNone => D32 0 | _ => d end).
      assert (Hd' : match rip_ind_from {| rm_base := 16; rm_mode := MInd ScaleNone d |} with
                    | Some r' => r' = mkRm rbp (MInd ScaleNone d') | None => False end)
        by (unfold d'; destruct d; reflexivity).
      destruct (rip_ind_from _) as [r'|]; [|contradiction]. subst r'. cbn [rm_base rm_mode mode_disp] in *.
      apply (Hgo rbp 0 (MInd ScaleNone d') [8 * (mm_reg mm mod 8) + 5] d'); auto; unfold rbp; try lia; try discriminate.
      * rewrite t_modrm_eq, t_imm_none, (t_disp_none d'). cbn [mode_encode].
        replace (64 * 0 + 8 * (mm_reg mm mod 8) + 5 mod 8) with (8 * (mm_reg mm mod 8) + 5) by lia. reflexivity.
      * constructor; [unfold is_byte; lia|constructor].
      * intros ri rest R X B. rewrite <- app_assoc. cbn [app].
        replace (8 * (mm_reg mm mod 8) + 5) with (64 * 0 + 8 * (mm_reg mm mod 8) + 5) by lia.
        rewrite parse_modrm_fields by lia. unfold parse_fields.
        change (0 =? 3) with false; change (5 =? 4) with false; change ((5 =? 5) && (0 =? 0)) with true. cbv iota.
        assert (Hdb := disp_bytes f d' i rest).
        assert (Ht : take_s 4 (flat f (fst (t_disp d' i)) ++ rest) = Some (disp_val f d, rest)).
        { unfold d' in *. destruct d; cbn [disp_ok take_disp] in *.
          - apply Hdb. reflexivity.
          - etransitivity; [apply Hdb; exact I|]. cbn [disp_val]. f_equal. f_equal. apply i32_id. unfold in_i8, in_i32 in *; lia.
          - apply Hdb. exact I.
          - apply Hdb. exact I. }
        rewrite Ht, R. reflexivity.
    + cbn [mode_is_reg negb andb] in *.
      assert (Hb' : 0 <= b <= 255) by lia. clear Hb.
      assert (Enb : (b =? 16) = false) by (unfold is_rip, rip in Erip; lia).
      assert (Hsem : rm_sem f (mkRm b (MInd ScaleNone d)) = RmM (mkMem (Some (BReg (b mod 16))) None (disp_val f d))).
      { unfold rm_sem; cbn [rm_mode rm_base]. rewrite Enb. reflexivity. }
      rewrite land7 in *.
      destruct (b mod 8 =? 4) eqn:E4.
      * (* rsp, r12 base: SIB without index *)
        apply (Hgo b 4 (MInd ScaleNone d) [64 * mode_encode (MInd ScaleNone d) + 8 * (mm_reg mm mod 8) + 4; 64 * 0 + 8 * 4 + 4] d); auto; try lia; try discriminate.
        -- rewrite t_modrm_eq, t_sib_eq, t_imm_none, (t_disp_none d) by lia.
           change (4 mod 8) with 4. replace (b mod 8) with 4 by lia. reflexivity.
        -- repeat constructor; unfold is_byte; destruct d; cbn [mode_encode]; lia.
        -- intros ri rest R X B. rewrite <- app_assoc. cbn [app].
           rewrite parse_modrm_fields by (destruct d; cbn [mode_encode]; lia).
           rewrite parse_sib by (destruct d; cbn [mode_encode]; lia).
           rewrite X, R, B. change (8 * (4 / 8) + 4 =? 4) with true. cbv iota.
           replace (mode_encode (MInd ScaleNone d)) with (match d with DispNone => 0 | D8 _ => 1 | _ => 2 end)
             by (destruct d; reflexivity).
           rewrite disp_bytes by assumption. rewrite Hsem. do 7 f_equal. lia.
      * cbn [is_indirect_no_disp andb mode_scale scale_index mode_disp] in *.
        destruct (match d with DispNone => true | _ => false end && (b mod 8 =? 5)) eqn:E5.
        -- (* rbp, r13 base without displacement *)
           assert (Hdn : d = DispNone) by (destruct d; try discriminate; reflexivity). subst d.
           apply (Hgo b 0 (MInd ScaleNone DispNone) [64 * 1 + 8 * (mm_reg mm mod 8) + 5] (D8 0)); auto; try lia; try discriminate.
           ++ rewrite t_modrm_eq, t_imm_none. replace (b mod 8) with 5 by lia. reflexivity.
           ++ repeat constructor; unfold is_byte; lia.
           ++ intros ri rest R X B. rewrite <- app_assoc. cbn [app].
              rewrite parse_modrm_fields by lia. unfold parse_fields.
              change (1 =? 3) with false; change (5 =? 4) with false; change ((5 =? 5) && (1 =? 0)) with false. cbv iota.
              change 1 with (match D8 0 with DispNone => 0 | D8 _ => 1 | _ => 2 end) at 1.
              rewrite disp_bytes by reflexivity. rewrite Hsem, R, B. cbn [disp_val]. do 7 f_equal. lia.
        -- apply (Hgo b 0 (MInd ScaleNone d) [64 * mode_encode (MInd ScaleNone d) + 8 * (mm_reg mm mod 8) + b mod 8] d); auto; try lia; try discriminate.
           ++ rewrite t_modrm_eq, t_imm_none, (t_disp_none d). reflexivity.
           ++ repeat constructor; unfold is_byte; destruct d; cbn [mode_encode]; lia.
           ++ intros ri rest R X B. rewrite <- app_assoc. cbn [app].
              rewrite parse_modrm_fields by (destruct d; cbn [mode_encode]; lia). unfold parse_fields.
              rewrite E4.
              destruct (mode_encode (MInd ScaleNone d) =? 3) eqn:Em3; [destruct d; discriminate|].
              destruct ((b mod 8 =? 5) && (mode_encode (MInd ScaleNone d) =? 0)) eqn:Em0; [destruct d; cbn [mode_encode] in *; lia|].
              replace (mode_encode (MInd ScaleNone d)) with (match d with DispNone => 0 | D8 _ => 1 | _ => 2 end)
                by (destruct d; reflexivity).
              rewrite disp_bytes by assumption. rewrite Hsem, R, B. do 7 f_equal. lia.
  - destruct Hrm as ([Hb Hb16] & Hk & Hi & Hdok).
    assert (Erip : is_rip b = false) by (unfold is_rip, rip; lia). rewrite Erip in *.
    cbn [mode_is_reg negb andb] in *. rewrite land7 in *.
    assert (Hidx2 : 8 * (idx / 8) + idx mod 8 = idx) by lia.
    assert (Hbb : 8 * ((b / 8) mod 2) + b mod 8 = b mod 16) by lia.
    assert (Hsem : rm_sem f (mkRm b (MInd (S1 k idx) d)) = RmM (mkMem (Some (BReg (b mod 16))) (if idx =? 4 then None else Some (idx, 2 ^ k)) (disp_val f d))) by reflexivity.
    assert (Hcase : forall d', (d' = d \/ d = DispNone /\ d' = D8 0) -> (b mod 8 = 5 -> d' <> DispNone) ->
       forall ri rest, rr ri = (rg / 8) mod 2 -> rx ri = idx / 8 -> rb ri = (b / 8) mod 2 ->
       parse_modrm ri (([64 * mode_encode (MInd (S1 k idx) d') + 8 * (mm_reg mm mod 8) + 4; 64 * k + 8 * (idx mod 8) + b mod 8]
           ++ flat f (fst (t_disp d' i))) ++ rest)
       = Some (mkModRM (8 * ((rg / 8) mod 2) + mm_reg mm mod 8) (mm_reg mm mod 8) (rm_sem f (mkRm b (MInd (S1 k idx) d))), rest)).
    { intros d' Hd' Hn ri rest R X B. rewrite <- app_assoc. cbn [app].
      rewrite parse_modrm_fields by (destruct d'; cbn [mode_encode]; lia).
      rewrite parse_sib; try (destruct d'; cbn [mode_encode]; lia).
      2:{ destruct d'; cbn [mode_encode]; try lia. left. intro. apply Hn; auto. }
      rewrite R, X, B.
      replace (mode_encode (MInd (S1 k idx) d')) with (match d' with DispNone => 0 | D8 _ => 1 | _ => 2 end)
        by (destruct d'; reflexivity).
      rewrite disp_bytes by (destruct Hd' as [-> | [-> ->]]; [exact Hdok|reflexivity]).
      rewrite Hsem, Hidx2, Hbb.
      destruct Hd' as [-> | [-> ->]]; reflexivity. }
    assert (Hbytes : forall d', Forall is_byte [64 * mode_encode (MInd (S1 k idx) d') + 8 * (mm_reg mm mod 8) + 4; 64 * k + 8 * (idx mod 8) + b mod 8]).
    { intro d'. repeat constructor; unfold is_byte; destruct d'; cbn [mode_encode]; lia. }
    destruct (b mod 8 =? 4) eqn:E4.
    + eapply (Hgo b idx (MInd (S1 k idx) d) _ d); auto; try discriminate; try apply (Hbytes d).
      * rewrite t_modrm_eq, t_sib_eq, t_imm_none, (t_disp_none d) by lia. change (4 mod 8) with 4. reflexivity.
      * intros ri rest R X B. apply (Hcase d); auto. lia.
    + cbn [is_indirect_no_disp andb mode_scale scale_index mode_disp] in *.
      destruct (match d with DispNone => true | _ => false end && (b mod 8 =? 5)) eqn:E5.
      * assert (Hdn : d = DispNone) by (destruct d; try discriminate; reflexivity). subst d.
        eapply (Hgo b idx (MInd (S1 k idx) DispNone) _ (D8 0)); auto; try discriminate; try apply (Hbytes (D8 0)).
        -- rewrite t_modrm_eq, t_sib_eq, t_imm_none by lia. change (4 mod 8) with 4. reflexivity.
        -- intros ri rest R X B. apply (Hcase (D8 0)); auto. discriminate.
      * eapply (Hgo b idx (MInd (S1 k idx) d) _ d); auto; try discriminate; try apply (Hbytes d).
        -- rewrite t_modrm_eq, t_sib_eq, t_imm_none, (t_disp_none d) by lia. change (4 mod 8) with 4. reflexivity.
        -- intros ri rest R X B. apply (Hcase d); auto. intros. destruct d; try discriminate. lia.
Qed.

(** ** Prefix handling *)
Definition plain_op (o : Z) : Prop :=
  (o =? 0x66) = false /\ (o =? 0xf2) = false /\ (o =? 0xf3) = false /\ (0x40 <=? o) && (o <=? 0x4f) = false.
Lemma rexb_split rexb ri p o t : rexb_ok rexb ri -> plain_op o ->
  prefixes p (rexb ++ o :: t) = (p, rexb ++ o :: t) /\ split_rex (rexb ++ o :: t) = (ri, o :: t).
Proof.
  intros [[-> ->] | (b & -> & Hb & ->)] (H1 & H2 & H3 & H4); cbn [app prefixes split_rex].
  - rewrite H1, H2, H3, H4. auto.
  - assert (E1 : (b =? 0x66) = false) by lia. assert (E2 : (b =? 0xf2) = false) by lia.
    assert (E3 : (b =? 0xf3) = false) by lia. assert (E4 : (0x40 <=? b) && (b <=? 0x4f) = true) by lia.
    rewrite E1, E2, E3, E4. auto.
Qed.
Lemma decode_plain rexb ri o t : rexb_ok rexb ri -> plain_op o ->
  decode (rexb ++ o :: t) = decode_op pfx0 ri (o :: t).
Proof. intros H K. unfold decode. destruct (rexb_split rexb ri pfx0 o t H K) as [-> ->]. reflexivity. Qed.
Lemma decode_66 rexb ri o t : rexb_ok rexb ri -> plain_op o ->
  decode (0x66 :: rexb ++ o :: t) = decode_op (mkPfx true RepNone) ri (o :: t).
Proof. intros H K. unfold decode. cbn [prefixes]. change (0x66 =? 0x66) with true. cbv iota.
  destruct (rexb_split rexb ri (mkPfx true (prep pfx0)) o t H K) as [-> ->]. reflexivity. Qed.
Lemma decode_f2 rexb ri o t : rexb_ok rexb ri -> plain_op o ->
  decode (0xf2 :: rexb ++ o :: t) = decode_op (mkPfx false RepF2) ri (o :: t).
Proof. intros H K. unfold decode. cbn [prefixes]. change (0xf2 =? 0x66) with false. change (0xf2 =? 0xf2) with true. cbv iota.
  destruct (rexb_split rexb ri (mkPfx (p66 pfx0) RepF2) o t H K) as [-> ->]. reflexivity. Qed.
Lemma decode_f3 rexb ri o t : rexb_ok rexb ri -> plain_op o ->
  decode (0xf3 :: rexb ++ o :: t) = decode_op (mkPfx false RepF3) ri (o :: t).
Proof. intros H K. unfold decode. cbn [prefixes]. change (0xf3 =? 0x66) with false. change (0xf3 =? 0xf2) with false.
  change (0xf3 =? 0xf3) with true. cbv iota.
  destruct (rexb_split rexb ri (mkPfx (p66 pfx0) RepF3) o t H K) as [-> ->]. reflexivity. Qed.

(** Facts about the ModRM byte used by opcode groups. *)
Lemma parse_digit ri bs x : parse_modrm ri bs = Some x -> digit_of ri bs = mr_digit (fst x).
Proof.
  destruct bs as [|m t]; [discriminate|]. unfold parse_modrm, digit_of.
  repeat match goal with |- context [match ?e with _ => _ end] => destruct e end; intro H; inversion H; reflexivity.
Qed.
Lemma parse_is_mem ri bs x : parse_modrm ri bs = Some x ->
  is_mem_modrm bs = match mr_rm (fst x) with RmM _ => true | _ => false end.
Proof.
  destruct bs as [|m t]; [discriminate|]. unfold parse_modrm, is_mem_modrm.
  destruct (m / 64 =? 3) eqn:E.
  - intro H; inversion H; reflexivity.
  - cbn [negb]. intro H.
    repeat match type of H with context [match ?e with _ => _ end] => destruct e end; inversion H; reflexivity.
Qed.
