(** Decoding what the encoder emits. *)
From Verif Require Import Base X64Decode EncModel EncSpec.

(** ** Finite checks *)
Definition below (n : nat) : list Z := map Z.of_nat (seq 0 n).

Lemma below_all : forall n (P : Z -> bool), forallb P (below n) = true ->
  forall z, 0 <= z < Z.of_nat n -> P z = true.
Proof.
  intros n P H z Hz. rewrite forallb_forall in H. apply H.
  unfold below. apply in_map_iff. exists (Z.to_nat z). split; [lia|].
  apply in_seq. lia.
Qed.

Lemma modrm_fields : forall md reg rm, 0 <= md < 4 -> 0 <= reg < 8 -> 0 <= rm < 8 ->
  let b := make_modrm md reg rm in
  0 <= b < 256 /\ field b 6 2 = md /\ field b 3 3 = reg /\ field b 0 3 = rm.
Proof.
  intros md reg rm H1 H2 H3.
  pose (P := fun md reg rm => let b := make_modrm md reg rm in
     (0 <=? b) && (b <? 256) && (field b 6 2 =? md) && (field b 3 3 =? reg) && (field b 0 3 =? rm)).
  assert (E : forallb (fun md => forallb (fun reg => forallb (P md reg) (below 8)) (below 8)) (below 4) = true)
    by (vm_compute; reflexivity).
  pose proof (below_all 4 _ E md ltac:(lia)) as E1. cbv beta in E1.
  pose proof (below_all 8 _ E1 reg ltac:(lia)) as E2. cbv beta in E2.
  pose proof (below_all 8 _ E2 rm ltac:(lia)) as E3. unfold P in E3. cbv zeta in *.
  rewrite !andb_true_iff in E3. destruct E3 as [[[[A B] C] D] F].
  repeat split; lia.
Qed.

Lemma reg_split : forall r, is_register r ->
  0 <= Z.land r 7 < 8 /\ 8 * (if register_is_extended r then 1 else 0) + Z.land r 7 = r
  /\ register_is_extended r = high r.
Proof.
  intros r H.
  pose (P := fun r => (0 <=? Z.land r 7) && (Z.land r 7 <? 8)
     && (8 * (if register_is_extended r then 1 else 0) + Z.land r 7 =? r)
     && Bool.eqb (register_is_extended r) (high r)).
  assert (E : forallb P (below 16) = true) by (vm_compute; reflexivity).
  pose proof (below_all 16 _ E r ltac:(unfold is_register in H; lia)) as E1. unfold P in E1.
  rewrite !andb_true_iff in E1. destruct E1 as [[[A B] C] D].
  apply eqb_prop in D. repeat split; try lia. exact D.
Qed.

Lemma emit_small : forall v, 0 <= v < 256 -> emit v = [v].
Proof. intros. unfold emit. cbn [emit_bytes]. rewrite Z.mod_small by lia. reflexivity. Qed.

Lemma length_emit_bytes : forall n v, length (emit_bytes n v) = n.
Proof. induction n; intros; cbn [emit_bytes length]; [reflexivity|]. now rewrite IHn. Qed.

Lemma le_value_emit : forall n v, le_value (emit_bytes n v) = v mod 2 ^ (8 * Z.of_nat n).
Proof.
  induction n; intros; cbn [emit_bytes le_value].
  - now rewrite Z.mul_0_r, Z.mod_1_r.
  - rewrite IHn. replace (8 * Z.of_nat (S n)) with (8 + 8 * Z.of_nat n) by lia.
    rewrite Z.pow_add_r by lia. change (2 ^ 8) with 256.
    rewrite Z.rem_mul_r by (try lia; pose proof (pow2_pos (8 * Z.of_nat n)); lia). reflexivity.
Qed.

Lemma le_signed_emit : forall n v, (0 < n)%nat ->
  - 2 ^ (8 * Z.of_nat n - 1) <= v < 2 ^ (8 * Z.of_nat n - 1) ->
  le_signed (emit_bytes n v) = v.
Proof.
  intros. unfold le_signed. rewrite length_emit_bytes, le_value_emit.
  rewrite (wraps_mod _ (v mod 2 ^ (8 * Z.of_nat n)) v) by (rewrite ?Z.mod_mod by (pose proof (pow2_pos (8 * Z.of_nat n)); lia); lia).
  apply wraps_id; lia.
Qed.

Lemma take_disp_emit : forall n v tail, (0 < n)%nat ->
  - 2 ^ (8 * Z.of_nat n - 1) <= v < 2 ^ (8 * Z.of_nat n - 1) ->
  take_disp n (emit_bytes n v ++ tail) = Some (v, tail).
Proof.
  intros n v tail Hn H. assert (E : take_disp n (emit_bytes n v ++ tail)
    = if (length (emit_bytes n v ++ tail) <? n)%nat then None
      else Some (le_signed (firstn n (emit_bytes n v ++ tail)), skipn n (emit_bytes n v ++ tail)))
    by (unfold take_disp; destruct n; [lia|reflexivity]).
  rewrite E, app_length, length_emit_bytes.
  destruct (Nat.ltb_spec (n + length tail) n); [lia|].
  rewrite firstn_app, skipn_app, length_emit_bytes, Nat.sub_diag.
  rewrite firstn_all2 by (rewrite length_emit_bytes; lia).
  rewrite skipn_all2 by (rewrite length_emit_bytes; lia).
  cbn [firstn skipn]. rewrite app_nil_r. now rewrite le_signed_emit.
Qed.

(** ** Prefixes and opcode *)
Lemma take_legacy_app : forall ps rest, forallb is_legacy ps = true ->
  match rest with [] => True | b :: _ => is_legacy b = false end ->
  take_legacy (ps ++ rest) = (ps, rest).
Proof.
  induction ps; cbn [app forallb take_legacy]; intros.
  - destruct rest; cbn [take_legacy]; [reflexivity|]. now rewrite H0.
  - apply andb_true_iff in H. destruct H. rewrite H, IHps by assumption. reflexivity.
Qed.

Lemma prefix_bytes_legacy : forall p size, forallb is_legacy (prefix_bytes p size) = true.
Proof.
  intros. unfold prefix_bytes. generalize (Z.testbit (legacy p)). intro f.
  apply forallb_forall. intros x H. apply in_map_iff in H. destruct H as ([b y] & <- & H).
  apply filter_In in H. destruct H as [H _]. cbn [In snd] in *.
  repeat (destruct H as [H|H]; [injection H as _ <-; reflexivity|]). contradiction.
Qed.

Lemma emit_legacy_shape : forall p reg regm index size m o, legal_opcode m o ->
  emit_legacy_and_opcode p reg regm index size (opcode_bytes m o) =
  prefix_bytes p size
  ++ (let rex := Z.lor (Z.lor (Z.lor (flag (size =? 8) 0x48)
                                 (flag (register_is_extended reg) 0x44))
                          (flag (register_is_extended regm) 0x41))
                   (flag ((0 <=? index) && register_is_extended index) 0x42) in
      when (negb (rex =? 0)) (emit rex)) ++ opcode_bytes m o.
Proof.
  intros p reg regm index size m o Ho.
  assert (Eop : concat (map emit (opcode_bytes m o)) = opcode_bytes m o).
  { destruct Ho as [Hr Ho]. unfold opcode_bytes, one_byte_opcode, two_byte_opcode, three_byte_opcode.
    destruct (m =? 0), (m =? 1), (m =? 2); cbn [map concat]; rewrite !(emit_small o Hr); reflexivity. }
  unfold emit_legacy_and_opcode. cbv zeta. rewrite Eop.
  assert (Hbit : forall b, 0 <= b -> Z.testbit (if size =? 2 then Z.lor (legacy p) (2 ^ P66) else legacy p) b
     = (if b =? 5 then (size =? 2) || Z.testbit (legacy p) b else Z.testbit (legacy p) b)).
  { intros b Hb. unfold P66. destruct (size =? 2).
    - rewrite Z.lor_spec. destruct (Z.eqb_spec b 5).
      + subst b. rewrite Z.pow2_bits_true by lia. now rewrite orb_true_r.
      + rewrite Z.pow2_bits_false by lia. now rewrite orb_false_r.
    - now destruct (b =? 5). }
  unfold PF0, PF2, PF3, P64, P65, P66, P67 in *.
  rewrite !Hbit by lia. cbn [Z.eqb Pos.eqb].
  unfold prefix_bytes.
  generalize ((size =? 2) || Z.testbit (legacy p) 5). intro b5.
  generalize (Z.testbit (legacy p) 0), (Z.testbit (legacy p) 1), (Z.testbit (legacy p) 2),
             (Z.testbit (legacy p) 3), (Z.testbit (legacy p) 4), (Z.testbit (legacy p) 6).
  intros b0 b1 b2 b3 b4 b6.
  generalize (opcode_bytes m o). intro op.
  match goal with |- context [when (negb (?r =? 0)) (emit ?r)] => generalize (when (negb (r =? 0)) (emit r)) end.
  intro rx.
  destruct b0, b1, b2, b3, b4, b5, b6; reflexivity.
Qed.

Lemma decode_opcode_ok : forall m o tail, legal_opcode m o ->
  decode_opcode (opcode_bytes m o ++ tail) = Some (m, o, tail).
Proof.
  intros m o tail [Hr H].
  destruct H as [(-> & H1 & H2 & H3 & H4 & H5)|[(-> & H1 & H2)|[-> | ->]]].
  - change (opcode_bytes 0 o) with [o]. cbn [app]. unfold decode_opcode.
    destruct o as [|o|o]; try lia; try reflexivity.
    do 8 (try (destruct o; try reflexivity; try lia)).
  - change (opcode_bytes 1 o) with [0x0F; o]. cbn [app]. unfold decode_opcode.
    destruct o as [|o|o]; try lia; try reflexivity.
    do 8 (try (destruct o; try reflexivity; try lia)).
  - change (opcode_bytes 2 o) with [0x0F; 0x38; o]. reflexivity.
  - change (opcode_bytes 3 o) with [0x0F; 0x3A; o]. reflexivity.
Qed.

Definition bit1 (b : bool) : Z := if b then 1 else 0.

Definition expected_head (p : prefixes) (m o reg regm index size : Z) : head :=
  let xe := (0 <=? index) && register_is_extended index in
  if uses_vex p
  then Head [] false false (bit1 (register_is_extended reg)) (bit1 xe) (bit1 (register_is_extended regm))
            (Some (requested_vex p size)) m o
  else Head (prefix_bytes p size) ((size =? 8) || register_is_extended reg || register_is_extended regm || xe)
            (size =? 8) (bit1 (register_is_extended reg)) (bit1 xe) (bit1 (register_is_extended regm)) None m o.

Lemma opcode_first : forall m o, legal_opcode m o ->
  exists c r, opcode_bytes m o = c :: r /\ is_legacy c = false /\ is_rex c = false /\ c <> 0xC4 /\ c <> 0xC5.
Proof.
  intros m o [Hr H].
  destruct H as [(-> & H1 & H2 & H3 & H4 & H5)|[(-> & H1 & H2)|[-> | ->]]].
  - exists o, []. change (opcode_bytes 0 o) with [o]. auto.
  - exists 0x0F, [o]. change (opcode_bytes 1 o) with [0x0F; o]. repeat split; try reflexivity; discriminate.
  - exists 0x0F, [0x38; o]. change (opcode_bytes 2 o) with [0x0F; 0x38; o]. repeat split; try reflexivity; discriminate.
  - exists 0x0F, [0x3A; o]. change (opcode_bytes 3 o) with [0x0F; 0x3A; o]. repeat split; try reflexivity; discriminate.
Qed.

Lemma head_dispatch : forall ps c rest', forallb is_legacy ps = true -> is_legacy c = false ->
  c <> 0xC4 -> c <> 0xC5 ->
  decode_head (ps ++ c :: rest') =
  (if is_rex c then
     match decode_opcode rest' with
     | Some (m, o, rest) => Some (Head ps true (field c 3 1 =? 1) (field c 2 1) (field c 1 1) (field c 0 1) None m o, rest)
     | None => None
     end
   else match decode_opcode (c :: rest') with
        | Some (m, o, rest) => Some (Head ps false false 0 0 0 None m o, rest)
        | None => None
        end).
Proof.
  intros. unfold decode_head. rewrite take_legacy_app by assumption.
  destruct c as [|c|c]; try reflexivity.
  do 8 (try (destruct c; try reflexivity; try congruence)).
Qed.

Lemma legacy_head : forall p reg regm index size m o tail, legal_opcode m o -> uses_vex p = false ->
  decode_head (emit_legacy_and_opcode p reg regm index size (opcode_bytes m o) ++ tail)
  = Some (expected_head p m o reg regm index size, tail).
Proof.
  intros p reg regm index size m o tail Ho Hv.
  rewrite emit_legacy_shape by assumption. unfold expected_head. rewrite Hv. cbv zeta.
  pose proof (prefix_bytes_legacy p size) as Hp.
  pose proof (decode_opcode_ok m o tail Ho) as Hd.
  destruct (opcode_first m o Ho) as (c & r & Hop & L & R & N4 & N5).
  generalize dependent (prefix_bytes p size). intros ps Hps.
  generalize (size =? 8). intro w. generalize (register_is_extended reg). intro rr.
  generalize (register_is_extended regm). intro bb.
  generalize ((0 <=? index) && register_is_extended index). intro xx.
  rewrite <- !app_assoc.
  destruct w, rr, bb, xx; cbn [flag]; cbv [Z.lor Pos.lor when negb Z.eqb Pos.eqb emit emit_bytes];
    try (match goal with |- context [ [?a mod 256] ++ _ ] => let v := eval vm_compute in (a mod 256) in
           change (a mod 256) with v end; cbn [app];
         rewrite head_dispatch by (first [assumption | reflexivity | discriminate]);
         match goal with |- context [is_rex ?a] => change (is_rex a) with true end;
         cbv iota; rewrite Hd; reflexivity).
  (* no REX *)
  rewrite app_nil_l, Hop, <- app_comm_cons. rewrite head_dispatch by assumption. rewrite R.
  rewrite app_comm_cons, <- Hop, Hd. reflexivity.
Qed.

Definition vex_last (v : Z) (l : bool) (simd : Z) : Z :=
  Z.lor (Z.lor (Z.shiftl (Z.land (Z.lnot v) 15) 3) (flag l 4)) simd.

Lemma vex_last_fields : forall v l simd (e : bool), is_register v -> 0 <= simd < 4 ->
  let b := Z.lor (vex_last v l simd) (flag e 0x80) in
  0 <= b < 256 /\ 15 - field b 3 4 = v /\ field b 2 1 = (if l then 1 else 0) /\ field b 0 2 = simd
  /\ field b 7 1 = bit1 e.
Proof.
  intros v l simd e Hv Hs.
  pose (P := fun v simd l e => let b := Z.lor (vex_last v l simd) (flag e 0x80) in
     (0 <=? b) && (b <? 256) && (15 - field b 3 4 =? v) && (field b 2 1 =? (if l then 1 else 0))
     && (field b 0 2 =? simd) && (field b 7 1 =? bit1 e)).
  assert (E : forallb (fun v => forallb (fun s => P v s true true && P v s true false && P v s false true && P v s false false) (below 4)) (below 16) = true)
    by (vm_compute; reflexivity).
  pose proof (below_all 16 _ E v ltac:(unfold is_register in Hv; lia)) as E1. cbv beta in E1.
  pose proof (below_all 4 _ E1 simd ltac:(lia)) as E2. cbv beta in E2.
  rewrite !andb_true_iff in E2. destruct E2 as [[[A B] C] D].
  assert (F : P v simd l e = true) by (destruct l, e; assumption).
  unfold P in F. cbv zeta in *. rewrite !andb_true_iff in F. decompose [and] F.
  repeat split; lia.
Qed.

Lemma vex_head : forall p reg regm index size m o tail, legal_opcode m o -> uses_vex p = true -> vex_ok p m ->
  exists bs, emit_vex_and_opcode p reg regm index size (opcode_bytes m o) = Done bs /\
  decode_head (bs ++ tail) = Some (expected_head p m o reg regm index size, tail).
Proof.
  intros p reg regm index size m o tail Ho Hv Hok.
  destruct (Hok Hv) as (Hm & Hr & T0 & T3 & T4 & T6 & T51 & T52 & T12).
  unfold emit_vex_and_opcode. cbv zeta. unfold PF0, P64, P65, P67, P66, PF2, PF3.
  rewrite T0, T3, T4, T6, T51, T52, T12. cbn [orb].
  unfold expected_head. rewrite Hv. cbv zeta.
  set (xe := (0 <=? index) && register_is_extended index).
  assert (Hs : exists simd, 0 <= simd < 4 /\
     (if Z.testbit (legacy p) 1 then 3 else if Z.testbit (legacy p) 2 then 2
       else if Z.testbit (legacy p) 5 then 1 else 0) = simd) by
    (destruct (Z.testbit (legacy p) 1), (Z.testbit (legacy p) 2), (Z.testbit (legacy p) 5); eexists; split; try reflexivity; lia).
  destruct Hs as (simd & Hs & Es).
  unfold requested_vex. rewrite Es. clear Es.
  destruct Ho as [Hro Ho]. clear T0 T3 T4 T6 T51 T52 T12.
  change (Z.lor (Z.lor (Z.shiftl (Z.land (Z.lnot (vex_register p)) 15) 3) (flag (size =? 32) 4)) simd)
    with (vex_last (vex_register p) (size =? 32) simd).
  assert (Hthree : forall m' mm op1, m' = m -> length (opcode_bytes m o) = 3%nat -> nth 1 (opcode_bytes m o) 0 = op1 ->
     last (opcode_bytes m o) 0 = o ->
     ((op1 = 0x38 /\ mm = 2 /\ m = 2) \/ (op1 = 0x3A /\ mm = 3 /\ m = 3)) -> True) by auto.
  clear Hthree.
  assert (Hlast : last (opcode_bytes m o) 0 = o).
  { unfold opcode_bytes, one_byte_opcode, two_byte_opcode, three_byte_opcode. destruct (m =? 0), (m =? 1), (m =? 2); reflexivity. }
  rewrite Hlast. rewrite (emit_small o Hro).
  set (L := vex_last (vex_register p) (size =? 32) simd).
  assert (L3 : Z.lor L (flag false 0x80) = L) by (cbn [flag]; apply Z.lor_0_r).
  pose proof (vex_last_fields (vex_register p) (size =? 32) simd false Hr Hs) as F3.
  fold L in F3. rewrite L3 in F3. cbv zeta in F3. destruct F3 as (B3 & F31 & F32 & F33 & F34).
  pose proof (vex_last_fields (vex_register p) (size =? 32) simd (negb (register_is_extended reg)) Hr Hs) as F2.
  fold L in F2. cbv zeta in F2. destruct F2 as (B2 & F21 & F22 & F23 & F24).
  (* three byte form *)
  assert (Three : forall rr xx bb mm, 1 <= mm <= 3 -> mm = m ->
     let rex := Z.lor (Z.lor (flag (negb rr) 4) (flag (negb bb) 1)) (flag (negb xx) 2) in
     decode_head ((emit 0xC4 ++ emit (Z.lor (Z.shiftl rex 5) mm) ++ emit L ++ [o]) ++ tail)
     = Some (Head [] false false (bit1 rr) (bit1 xx) (bit1 bb)
               (Some (Vex (vex_register p) (if size =? 32 then 1 else 0) simd)) m o, tail)).
  { intros rr xx bb mm Hmm Em rex.
    rewrite (emit_small L B3).
    set (q := Z.lor (Z.shiftl rex 5) mm).
    assert (Hq : 0 <= q < 256 /\ 1 - field q 7 1 = bit1 rr /\ 1 - field q 6 1 = bit1 xx /\ 1 - field q 5 1 = bit1 bb /\ field q 0 5 = mm).
    { subst q rex. assert (mm = 1 \/ mm = 2 \/ mm = 3) as [-> | [-> | ->]] by lia;
        destruct rr, xx, bb; vm_compute; repeat split; congruence. }
    destruct Hq as (Bq & Q1 & Q2 & Q3 & Q4). rewrite (emit_small q Bq). change (emit 0xC4) with [0xC4]. cbn [app].
    unfold decode_head. change (take_legacy (0xC4 :: q :: L :: o :: tail)) with (@nil Z, 0xC4 :: q :: L :: o :: tail).
    cbv iota beta. rewrite Q1, Q2, Q3, Q4, F31, F32, F33, F34, Em. reflexivity. }
  assert (Two : decode_head ((emit 0xC5 ++ emit (Z.lor L (flag (negb (register_is_extended reg)) 0x80)) ++ [o]) ++ tail)
     = Some (Head [] false false (bit1 (register_is_extended reg)) 0 0
               (Some (Vex (vex_register p) (if size =? 32 then 1 else 0) simd)) 1 o, tail)).
  { rewrite (emit_small _ B2). change (emit 0xC5) with [0xC5]. cbn [app].
    set (q := Z.lor L (flag (negb (register_is_extended reg)) 0x80)) in *.
    unfold decode_head. change (take_legacy (0xC5 :: q :: o :: tail)) with (@nil Z, 0xC5 :: q :: o :: tail).
    cbv iota beta. rewrite F21, F22, F23, F24. destruct (register_is_extended reg); reflexivity. }
  assert (Erex : forall i, (if 0 <=? index then flag (negb (register_is_extended index)) 2 else 2) = i ->
     flag (negb xe) 2 = i).
  { intros i <-. subst xe. destruct (0 <=? index); [|reflexivity]. cbn [andb]. reflexivity. }
  rewrite <- (Erex _ eq_refl).
  destruct Ho as [(-> & _)|[(-> & H1 & H2)|[-> | ->]]]; [congruence| | |].
  - change (opcode_bytes 1 o) with [0x0F; o]. cbn [length Nat.eqb andb negb]. rewrite orb_false_r.
    fold xe. destruct (register_is_extended regm || xe) eqn:E.
    + eexists; split; [reflexivity|]. apply (Three (register_is_extended reg) xe (register_is_extended regm) 1); [lia|reflexivity].
    + eexists; split; [reflexivity|]. apply orb_false_iff in E. destruct E as [E1 E2]. rewrite E1, E2. exact Two.
  - change (opcode_bytes 2 o) with [0x0F; 0x38; o]. cbn [length Nat.eqb andb negb nth]. rewrite orb_true_r.
    change (0x38 =? 0x38) with true. cbn [orb negb].
    eexists; split; [reflexivity|]. apply (Three (register_is_extended reg) xe (register_is_extended regm) 2); [lia|reflexivity].
  - change (opcode_bytes 3 o) with [0x0F; 0x3A; o]. cbn [length Nat.eqb andb negb nth]. rewrite orb_true_r.
    change (0x3A =? 0x38) with false. change (0x3A =? 0x3A) with true. cbn [orb negb].
    eexists; split; [reflexivity|]. apply (Three (register_is_extended reg) xe (register_is_extended regm) 3); [lia|reflexivity].
Qed.

Lemma head_ok : forall p reg regm index size m o, legal_opcode m o -> vex_ok p m ->
  exists bs, emit_prefixes_and_opcode p reg regm index size (opcode_bytes m o) = Done bs /\
  forall tail, decode_head (bs ++ tail) = Some (expected_head p m o reg regm index size, tail).
Proof.
  intros p reg regm index size m o Ho Hv. unfold emit_prefixes_and_opcode.
  change (Z.testbit (legacy p) PVEX) with (uses_vex p). destruct (uses_vex p) eqn:E.
  - destruct (vex_head p reg regm index size m o [] Ho E Hv) as (bs & H1 & _). exists bs. split; [exact H1|].
    intro tail. destruct (vex_head p reg regm index size m o tail Ho E Hv) as (bs' & H2 & H3).
    assert (bs' = bs) by congruence. subst. exact H3.
  - eexists; split; [reflexivity|]. intro tail. now apply legacy_head.
Qed.

Lemma expected_requested : forall p m o reg regm index size rm, is_register reg -> is_register regm ->
  (0 <= index -> is_register index) ->
  let h := expected_head p m o reg regm index size in
  Insn (h_legacy h) (h_rex h) (h_w h) (h_vex h) (h_map h) (h_opc h) reg rm
  = requested p m o reg regm (high index) size rm.
Proof.
  intros p m o reg regm index size rm Hr Hm Hi h. subst h. unfold expected_head, requested. cbv zeta.
  destruct (reg_split reg Hr) as (_ & _ & ->). destruct (reg_split regm Hm) as (_ & _ & ->).
  assert (E : (0 <=? index) && register_is_extended index = high index).
  { destruct (Z.leb_spec 0 index).
    - destruct (reg_split index (Hi H)) as (_ & _ & ->). reflexivity.
    - unfold high. cbn [andb]. symmetry. apply Z.leb_gt. lia. }
  rewrite E. destruct (uses_vex p); reflexivity.
Qed.

(** ** Register operands *)
Lemma register_op_decodes : forall p m o reg regm size, legal_opcode m o -> vex_ok p m ->
  is_register reg -> is_register regm ->
  exists bs, emit_register_op p (opcode_bytes m o) reg regm size = Done bs /\
  forall tail, decode_insn (bs ++ tail) = Some (requested p m o reg regm false size (RmReg regm), tail).
Proof.
  intros p m o reg regm size Ho Hv Hr Hm.
  destruct (head_ok p reg regm INVALID_REGISTER size m o Ho Hv) as (h & E & Hd).
  unfold emit_register_op. rewrite E. cbn [obind]. eexists; split; [reflexivity|]. intro tail.
  rewrite <- app_assoc. unfold decode_insn. rewrite Hd.
  destruct (reg_split reg Hr) as (R1 & R2 & R3). destruct (reg_split regm Hm) as (M1 & M2 & M3).
  destruct (modrm_fields 3 (Z.land reg 7) (Z.land regm 7) ltac:(lia) R1 M1) as (B & F1 & F2 & F3).
  unfold MODRM_REG. rewrite (emit_small _ B). cbn [app]. unfold decode_modrm. rewrite F1, F2, F3.
  change (3 =? 3) with true. cbv iota beta zeta.
  pose proof (expected_requested p m o reg regm INVALID_REGISTER size (RmReg regm) Hr Hm ltac:(unfold INVALID_REGISTER; lia)) as X.
  cbv zeta in X. change (high INVALID_REGISTER) with false in X. rewrite <- X.
  assert (Er : h_r (expected_head p m o reg regm INVALID_REGISTER size) = bit1 (register_is_extended reg)) by
    (unfold expected_head; destruct (uses_vex p); reflexivity).
  assert (Eb : h_b (expected_head p m o reg regm INVALID_REGISTER size) = bit1 (register_is_extended regm)) by
    (unfold expected_head; destruct (uses_vex p); reflexivity).
  rewrite Er, Eb. unfold bit1. rewrite R2, M2. reflexivity.
Qed.

(** ** Memory operands *)
Lemma fits32 : forall d, is_s32 d -> - 2 ^ (8 * Z.of_nat 4 - 1) <= d < 2 ^ (8 * Z.of_nat 4 - 1).
Proof. unfold is_s32. intros. change (2 ^ (8 * Z.of_nat 4 - 1)) with 2147483648. lia. Qed.

Lemma fits8 : forall d, -128 <= d <= 127 -> - 2 ^ (8 * Z.of_nat 1 - 1) <= d < 2 ^ (8 * Z.of_nat 1 - 1).
Proof. intros. change (2 ^ (8 * Z.of_nat 1 - 1)) with 128. lia. Qed.

(** The displacement bytes for a mod are read back. *)
Lemma disp_ok : forall loc tail, m_ir loc = false -> is_s32 (m_offset loc) ->
  (choose_mod loc = 0 -> m_offset loc = 0) /\
  0 <= choose_mod loc < 3 /\
  take_disp (disp_size (choose_mod loc))
    ((if choose_mod loc =? MODRM_REGM32 then emit_u32 (m_offset loc)
      else if choose_mod loc =? MODRM_REGM8 then emit (m_offset loc) else []) ++ tail)
  = Some (m_offset loc, tail).
Proof.
  intros loc tail Hir Hs. unfold choose_mod. rewrite Hir.
  unfold MODRM_REGM32, MODRM_REGM8, MODRM_REGM.
  assert (D0 : m_offset loc = 0 -> take_disp 0 ([] ++ tail) = Some (m_offset loc, tail)).
  { intros ->. reflexivity. }
  destruct ((m_offset loc >? 127) || (m_offset loc <? -128)) eqn:E.
  - split; [|split]; [intro; discriminate|lia|]. change (disp_size 2) with 4%nat. cbn [Z.eqb Pos.eqb].
    unfold emit_u32. apply take_disp_emit; [lia|]. now apply fits32.
  - apply orb_false_iff in E.
    assert (-128 <= m_offset loc <= 127) by lia.
    destruct (Z.eqb_spec (m_offset loc) 0) as [E0|E0]; cbn [negb].
    + destruct (m_base loc =? REGISTER_BP).
      * split; [|split]; [auto|lia|]. change (disp_size 1) with 1%nat. cbn [Z.eqb Pos.eqb].
        unfold emit. apply take_disp_emit; [lia|]. now apply fits8.
      * split; [|split]; [auto|lia|]. change (disp_size 0) with 0%nat. cbn [Z.eqb Pos.eqb]. now apply D0.
    + split; [|split]; [intro; discriminate|lia|]. change (disp_size 1) with 1%nat. cbn [Z.eqb Pos.eqb].
      unfold emit. apply take_disp_emit; [lia|]. now apply fits8.
Qed.

Lemma immediate_done : forall imm, immediate_ok imm -> emit_immediate imm = Done (immediate_bytes imm).
Proof.
  intros [[s v]|]; cbn; [|reflexivity]. intros [-> |[-> |[-> | ->]]]; reflexivity.
Qed.

Lemma modrm_sib_decodes : forall reg base index scale disp ir size r x b rest,
  is_register reg -> encodable base index disp -> 0 <= scale < 4 -> ir = false ->
  let loc := mkmem base (index_number index) scale disp ir size in
  r = bit1 (register_is_extended reg) -> b = bit1 (register_is_extended base) ->
  x = bit1 ((0 <=? index_number index) && register_is_extended (index_number index)) ->
  decode_modrm r x b
    (emit_modrm_sib (choose_mod loc) reg loc
     ++ ((if choose_mod loc =? MODRM_REGM32 then emit_u32 disp
          else if choose_mod loc =? MODRM_REGM8 then emit disp else []) ++ rest))
  = Some (reg, RmMem (BaseReg base) (option_map (fun i => (i, 2 ^ scale)) index) disp, rest).
Proof.
  intros reg base index scale disp ir size r x b rest Hreg Henc Hsc -> loc -> -> ->.
  destruct Henc as (Hb & Hs & Hi & H13).
  destruct (disp_ok loc rest eq_refl Hs) as (Hm0 & Hm & Hd).
  change (m_offset loc) with disp in *.
  destruct (reg_split reg Hreg) as (R1 & R2 & R3). destruct (reg_split base Hb) as (B1 & B2 & B3).
  assert (Hmod0 : choose_mod loc = 0 -> Z.land base 7 <> 5).
  { intros E0 E5. pose proof (Hm0 E0) as D.
    assert (base = 5 \/ base = 13).
    { revert B2. rewrite E5. destruct (register_is_extended base); lia. }
    destruct H as [-> | ->]; [|now apply H13].
    revert E0. unfold choose_mod. subst loc. cbn [m_ir m_offset m_base]. rewrite D.
    vm_compute. discriminate. }
  destruct Hm as [Hm1 Hm2].
  remember (choose_mod loc) as md eqn:Emd.
  unfold emit_modrm_sib, decode_modrm. subst loc. cbn [m_index m_base m_log_scale].
  assert (Hne3 : md =? 3 = false) by lia.
  destruct index as [i|]; cbn [index_number option_map] in *.
  - destruct Hi as [Hi Hi4]. destruct (reg_split i Hi) as (I1 & I2 & I3).
    assert (E : 0 <=? i = true) by (unfold is_register in Hi; lia). rewrite E. cbn [andb].
    replace (i =? REGISTER_SP) with false by (unfold REGISTER_SP; lia).
    destruct (modrm_fields md (Z.land reg 7) 4 ltac:(lia) R1 ltac:(lia)) as (Bm & F1 & F2 & F3).
    destruct (modrm_fields scale (Z.land i 7) (Z.land base 7) ltac:(lia) I1 B1) as (Bs & G1 & G2 & G3).
    change make_sib with make_modrm. unfold REGISTER_SIB_EXTENSION, REGISTER_SP.
    rewrite (emit_small _ Bm), (emit_small _ Bs). cbn [app].
    rewrite F1, F2, F3, G1, G2, G3, Hne3. change (4 =? 4) with true. cbv iota zeta.
    unfold bit1. rewrite I2, R2, B2. replace (i =? 4) with false by lia.
    destruct (Z.eqb_spec md 0) as [E0|E0]; cbn [andb].
    + replace (Z.land base 7 =? 5) with false by (symmetry; apply Z.eqb_neq; auto).
      cbn [Z.eqb] in Hd. rewrite Hd. reflexivity.
    + rewrite Hd. reflexivity.
  - change (0 <=? -1) with false. cbn [andb].
    unfold REGISTER_SIB_EXTENSION, REGISTER_SP.
    destruct (Z.eqb_spec base 4) as [E4|E4].
    + destruct (modrm_fields md (Z.land reg 7) 4 ltac:(lia) R1 ltac:(lia)) as (Bm & F1 & F2 & F3).
      destruct (modrm_fields md 4 (Z.land base 7) ltac:(lia) ltac:(lia) B1) as (Bs & G1 & G2 & G3).
      change make_sib with make_modrm. rewrite (emit_small _ Bm), (emit_small _ Bs). cbn [app].
      rewrite F1, F2, F3, G1, G2, G3, Hne3. change (4 =? 4) with true. cbv iota zeta.
      change (8 * bit1 false + 4 =? 4) with true. cbv iota. unfold bit1. rewrite R2, B2.
      destruct (Z.eqb_spec md 0) as [E0|E0]; cbn [andb].
      * replace (Z.land base 7 =? 5) with false by (symmetry; apply Z.eqb_neq; auto).
        rewrite Hd. reflexivity.
      * rewrite Hd. reflexivity.
    + destruct (modrm_fields md (Z.land reg 7) (Z.land base 7) ltac:(lia) R1 B1) as (Bm & F1 & F2 & F3).
      rewrite (emit_small _ Bm). cbn [app]. rewrite F1, F2, F3, Hne3. cbv zeta.
      assert (E : Z.land base 7 =? 4 = false).
      { apply Z.eqb_neq. intro E. revert B2. rewrite E. destruct (register_is_extended base); lia. }
      rewrite E. unfold bit1. rewrite R2, B2.
      destruct (Z.eqb_spec md 0) as [E0|E0]; cbn [andb].
      * replace (Z.land base 7 =? 5) with false by (symmetry; apply Z.eqb_neq; auto).
        rewrite Hd. reflexivity.
      * rewrite Hd. reflexivity.
Qed.

Lemma memory_op_decodes : forall p m o reg base index scale disp size imm,
  legal_opcode m o -> vex_ok p m -> is_register reg -> encodable base index disp -> 0 <= scale < 4 ->
  immediate_ok imm ->
  exists bs,
    emit_register_relative p (opcode_bytes m o) reg
      (mkmem base (index_number index) scale disp false size) imm = Done (bs, None) /\
    forall tail,
      decode_insn (bs ++ tail)
      = Some (requested p m o reg base (high (index_number index)) size
                (RmMem (BaseReg base) (option_map (fun i => (i, 2 ^ scale)) index) disp),
              immediate_bytes imm ++ tail).
Proof.
  intros p m o reg base index scale disp size imm Ho Hv Hr He Hsc Himm.
  unfold emit_register_relative. cbn [m_ir m_offset m_base m_index m_size negb andb].
  pose proof He as (Hb & Hs & Hi & H13).
  replace ((disp >? 2147483647) || (disp <? -2147483648)) with false
    by (unfold is_s32 in Hs; symmetry; apply orb_false_iff; lia).
  destruct (head_ok p reg base (index_number index) size m o Ho Hv) as (h & E & Hd).
  rewrite E. cbn [obind]. rewrite (immediate_done _ Himm). cbn [obind].
  eexists; split; [reflexivity|]. intro tail.
  rewrite <- !app_assoc. unfold decode_insn. rewrite Hd.
  rewrite (modrm_sib_decodes reg base index scale disp false size _ _ _ (immediate_bytes imm ++ tail) Hr He Hsc eq_refl);
    [|unfold expected_head; destruct (uses_vex p); reflexivity ..].
  pose proof (expected_requested p m o reg base (index_number index) size
    (RmMem (BaseReg base) (option_map (fun i => (i, 2 ^ scale)) index) disp) Hr Hb) as X.
  cbv zeta in X. rewrite X; [reflexivity|].
  destruct index as [i|]; cbn [index_number]; [intros _; apply Hi|lia].
Qed.

(** ** Rip-relative operands *)
Lemma rip_op_shape : forall p m o reg offset size imm,
  legal_opcode m o -> vex_ok p m -> is_register reg -> immediate_ok imm ->
  exists before,
    emit_register_relative p (opcode_bytes m o) reg (mkmem 5 (-1) 0 offset true size) imm
    = Done (before ++ emit_u32 0 ++ immediate_bytes imm,
            Some (Z.of_nat (length before), Z.of_nat (length (before ++ emit_u32 0 ++ immediate_bytes imm)))) /\
    forall v tail, is_s32 v ->
      decode_insn (before ++ emit_u32 v ++ immediate_bytes imm ++ tail)
      = Some (requested p m o reg 5 false size (RmMem BaseRip None v), immediate_bytes imm ++ tail).
Proof.
  intros p m o reg offset size imm Ho Hv Hr Himm.
  unfold emit_register_relative. cbn [m_ir m_offset m_base m_index m_size negb andb].
  change ((-1 =? -1) && (5 =? REGISTER_BP)) with true. cbn [negb].
  assert (H5 : is_register 5) by (unfold is_register; lia).
  destruct (head_ok p reg 5 (-1) size m o Ho Hv) as (h & E & Hd).
  rewrite E. cbn [obind]. rewrite (immediate_done _ Himm). cbn [obind].
  unfold choose_mod. cbn [m_ir].
  exists (h ++ emit_modrm_sib MODRM_REGM reg (mkmem 5 (-1) 0 offset true size)).
  split; [reflexivity|]. intros v tail Hs.
  rewrite <- !app_assoc. unfold decode_insn. rewrite Hd.
  destruct (reg_split reg Hr) as (R1 & R2 & R3).
  unfold emit_modrm_sib. cbn [m_index m_base m_log_scale].
  change (0 <=? -1) with false. change (5 =? REGISTER_SIB_EXTENSION) with false. cbv iota.
  change (Z.land 5 7) with 5. unfold MODRM_REGM.
  destruct (modrm_fields 0 (Z.land reg 7) 5 ltac:(lia) R1 ltac:(lia)) as (Bm & F1 & F2 & F3).
  rewrite (emit_small _ Bm). cbn [app]. unfold decode_modrm. rewrite F1, F2, F3.
  change (0 =? 3) with false. change (5 =? 4) with false. change ((0 =? 0) && (5 =? 5)) with true. cbv iota zeta.
  unfold emit_u32. rewrite take_disp_emit by (try lia; now apply fits32).
  pose proof (expected_requested p m o reg 5 (-1) size (RmMem BaseRip None v) Hr H5 ltac:(lia)) as X.
  cbv zeta in X. change (high (-1)) with false in X. rewrite <- X.
  replace (h_r (expected_head p m o reg 5 (-1) size)) with (bit1 (register_is_extended reg))
    by (unfold expected_head; destruct (uses_vex p); reflexivity).
  unfold bit1. rewrite R2. reflexivity.
Qed.
