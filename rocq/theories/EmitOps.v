(** The operations of the code generator on the operands of EmitSim.v: conversions, comparisons,
    unary operators, shifts, multiplication and division. *)
From Coq Require Import Permutation.
From Verif Require Import Base X64Decode X64Machine EncModel EncSpec EncProofs EncProps EmitModel StepProofs ExecProofs EmitBasics EmitSim.
From Verif Require JumpSpec JumpProofs.

Section Ops.
Variables (ss TL : Z) (regs0 : Z -> Z).
Let bpv := regs0 5.
Hypothesis H_ss : 0 <= ss.
Hypothesis H_TL : 0 <= TL.
Hypothesis H_off : ss + TL <= 2 ^ 31.
Hypothesis H_bp : ss + TL <= bpv < 2 ^ 64.

Local Notation wf := (wf ss TL regs0).
Local Notation holds := (holds ss regs0).
Local Notation sim := (sim ss TL regs0).
Local Notation frame := (frame ss).
Local Notation spills := (spills ss TL regs0).
Local Notation loads := (loads ss TL regs0).
Local Notation yields := (yields ss TL regs0).
Local Notation val := (val regs0).
Local Notation good := (good ss TL regs0).
Local Notation outside := (outside ss TL regs0).
Local Notation loaded := (loaded regs0).
Local Notation readable := (readable ss TL regs0).
Local Notation peek := (peek regs0).
Local Notation load_ok := (load_ok ss TL regs0).
Local Notation reloaded := (reloaded regs0).
Local Notation load_ok_emit := (load_ok_emit ss TL regs0 H_ss H_TL H_off H_bp).
Local Notation load_specific_spec := (load_specific_spec ss TL regs0 H_ss H_TL H_off H_bp).
Local Notation rr_spec := (rr_spec ss TL regs0 H_ss H_TL H_bp).
Local Notation peek_val := (peek_val ss TL regs0 H_bp).
Local Notation take_spec := (take_spec ss TL regs0 H_ss H_off H_bp).
Local Notation binary_spec := (binary_spec ss TL regs0 H_ss H_TL H_off H_bp).
Local Notation free_spec := (free_spec ss TL regs0 H_ss H_bp).
Local Notation sim_set := (sim_set ss TL regs0 H_ss H_bp).
Local Notation sim_code := (sim_code ss TL regs0 H_ss H_bp).
Local Notation loads_reg := (loads_reg ss TL regs0 H_ss H_TL H_bp).
Local Notation sim_write_head := (sim_write_head ss TL regs0 H_ss H_bp).
Local Notation specific_spec := (specific_spec ss TL regs0 H_ss H_off H_bp).
Local Notation allocate_spec := (allocate_spec ss TL regs0 H_ss H_off H_bp).
Local Notation loaded_spec := (loaded_spec ss TL regs0 H_ss H_bp).
Local Notation holds_loaded := (holds_loaded ss TL regs0 H_ss H_TL H_bp).
Local Notation sim_same := (sim_same ss TL regs0 H_ss H_bp).
Local Notation sim_locks := (sim_locks ss TL regs0 H_ss H_bp).
Local Notation sim_new := (sim_new ss TL regs0 H_ss H_bp).
Local Notation sim_keep := (sim_keep ss TL regs0 H_ss H_bp).
Local Notation sim_write := (sim_write ss TL regs0 H_ss H_bp).
Local Notation sim_write_any := (sim_write_any ss TL regs0 H_ss H_bp).
Local Notation emitted_rel := (emitted_rel ss TL regs0 H_bp).
Local Notation legal0 := (legal0 regs0).
Local Notation legal1 := (legal1 regs0).
Local Notation sim_head := (sim_head ss TL regs0).
Local Notation sim_wf := (sim_wf ss TL regs0).
Local Notation sim_drop := (sim_drop ss TL regs0).
Local Notation sim_ids := (sim_ids ss TL regs0).
Local Notation sim_cons := (sim_cons ss TL regs0).
Local Notation sim_swap := (sim_swap ss TL regs0).
Local Notation sim_perm := (sim_perm ss TL regs0).
Local Notation sim_disjoint := (sim_disjoint ss TL regs0).
Local Notation sim_fresh := (sim_fresh ss TL regs0).
Local Notation holds_nonzero := (holds_nonzero ss TL regs0).
Local Notation wf_map := (wf_map ss TL regs0).
Local Notation wf_ps := (wf_ps ss TL regs0).
Local Notation wf_bp := (wf_bp ss TL regs0).
Local Notation wf_regs := (wf_regs ss TL regs0).
Local Notation wf_word := (wf_word ss TL regs0).
Local Notation wf_tsa := (wf_tsa ss TL regs0).
Local Notation wf_mem := (wf_mem ss TL regs0).
Local Notation ids_exist := (ids_exist ss TL regs0).
Local Notation spills_clear := (spills_clear ss TL regs0).
Local Notation sp_trans := (sp_trans ss TL regs0).
Local Notation sp_sim := (sp_sim ss TL regs0).
Local Notation sp_frame := (sp_frame ss TL regs0).
Local Notation sp_fl := (sp_fl ss TL regs0).
Local Notation sp_regs := (sp_regs ss TL regs0).
Local Notation sp_map := (sp_map ss TL regs0).
Local Notation sp_len := (sp_len ss TL regs0).
Local Notation f_code := (f_code ss TL regs0).
Local Notation f_tsa := (f_tsa ss TL regs0).
Local Notation f_len := (f_len ss TL regs0).
Local Notation f_heap := (f_heap ss TL regs0).
Local Notation f_map := (f_map ss TL regs0).
Local Notation f_wf := (f_wf ss TL regs0).
Local Notation f_clear := (f_clear ss TL regs0).
Local Notation outside_load := (outside_load ss TL regs0).
Local Notation sim_base := (sim_base ss TL regs0).
Local Notation wf_write := (wf_write ss TL regs0).
Local Notation pinned_ready := (pinned_ready ss TL regs0).
Local Notation holds_id := (holds_id ss regs0).
Local Notation holds_ids := (holds_ids ss regs0).
Local Notation HReg := (HReg ss regs0).
Local Notation HSlot := (HSlot ss regs0).
Local Notation HIm := (HIm ss regs0).
Local Notation HLv := (HLv ss regs0).
Local Notation HSl := (HSl ss regs0).
Local Notation holds_relative := (holds_relative ss regs0).
Local Notation holds_write := (holds_write ss regs0).
Local Notation loc_ok := (loc_ok ss regs0).
Local Notation slots_kept := (slots_kept ss regs0).
Local Notation frame_trans := (frame_trans ss).
Local Notation frame_weaken := (frame_weaken ss).
Local Notation frame_clear := (frame_clear ss).
Local Notation frame_lock := (frame_lock ss).
Local Notation frame_locked := (frame_locked ss).
Local Notation frame_new := (frame_new ss).
Local Notation frame_unloaded := (frame_unloaded ss).
Local Notation lock_inv := (lock_inv ss).
Local Notation frame_refl := (frame_refl ss).
Local Notation mod_le := (mod_le regs0).
Local Notation unlock_lock := (unlock_lock regs0).
Local Notation legal_bin := (legal_bin regs0).
Local Notation loaded_no_bp := (loaded_no_bp regs0).
Local Notation I_xor_self := (I_xor_self regs0).
Local Notation wrote_narrow := (wrote_narrow regs0).
Local Notation base_register := (base_register ss TL regs0 H_bp).
#[local] Hint Resolve quiet_loaded quiet_conditional quiet_relative quiet_stack_relative quiet_immediate quiet_spill quiet_specific quiet_allocate
  quiet_free quiet_prevent_freeing quiet_allow_freeing quiet_unlock quiet_allow_spilling quiet_loaded_register quiet_emit_op quiet_ext_op
  quiet_register_register quiet_register_relative_with quiet_load quiet_load_specific quiet_prevent_spilling quiet_rr quiet_ri quiet_load_address quiet_store quiet_binary_op
  quiet_dmm quiet_shift quiet_compare_to_zero quiet_integer_cast quiet_load_bitfield quiet_load_into quiet_load_fuel : quiet.

Ltac later E Q := match type of E with ?c ?s1 = Done (_, ?s2) =>
  let q := fresh in assert (q : quiet c) by quiet_auto; pose proof (q_tsa _ _ (q _ _ _ E)) as Q; clear q end.

(** ** A result in a register *)
Definition yreg (s : emitter) (m : machine) (s' : emitter) (m' : machine) (M0 : Z -> Z) (L : list item)
                (fp : list nat) (n v : Z) (id : nat) (r : Z) : Prop :=
  sim s' m' M0 ((Rv n v, id, [id]) :: L) /\ trans s m s' m' /\ frame s s' (0%nat :: fp) /\ clear s' [id] /\
  (In id fp \/ (length (heap s) <= id)%nat) /\ (length (heap s) <= length (heap s'))%nat /\ in_reg s' id r n.

Lemma yreg_yields : forall s m s' m' M0 L fp n v id r, yreg s m s' m' M0 L fp n v id r -> yields s m s' m' M0 L fp (Rv n v) id.
Proof.
  intros s m s' m' M0 L fp n v id r (A & B & C & D & E & F & G). exists [id].
  split; [exact A|]. split; [exact B|]. split; [exact C|]. split; [exact D|]. split; [|exact F].
  intros i [<-|[]]. exact E.
Qed.

Lemma yreg_facts : forall s m s' m' M0 L fp n v id r, yreg s m s' m' M0 L fp n v id r ->
  In r volatile /\ plain_reg r /\ is_register r /\ rmap s' r = Some id /\ is_size_P n /\ regs m' r mod 2 ^ (8 * n) = v /\ id <> 0%nat.
Proof.
  intros s m s' m' M0 L fp n v id r (A & B & C & D & E & F & G).
  destruct (loads_reg _ _ _ _ _ _ _ _ _ A G) as (_ & H1 & H2 & H3 & H4 & H5).
  destruct (volatile_plain r H1) as (P & I & _). auto 10.
Qed.

Lemma load_spec : forall s m M0 L o id fp id' s', sim s m M0 ((o, id, fp) :: L) -> clear s fp -> good M0 o -> o <> Bp ->
  emit_load_gpr ss id s = Done (id', s') -> tsa s' <= TL ->
  exists m' r, yreg s m s' m' M0 L fp (osize o) (val M0 o) id' r.
Proof.
  intros s m M0 L o id fp id' s' H Hc Hg Nb E HT.
  destruct (load_ok_emit _ _ _ _ _ _ _ _ _ H (or_introl Hc) Hg E HT) as (m' & (fp' & A & B & C & (r & D) & F & G & K) & _).
  rewrite loaded_no_bp in A, D by exact Nb. cbn [osize] in D.
  destruct (loads_reg _ _ _ _ _ _ _ _ _ A D) as (-> & _). exists m', r.
  split; [exact A|]. split; [exact B|]. split; [apply (frame_weaken _ _ _ _ C); intros i Hi; right; exact Hi|].
  split; [apply G, Hc|]. split.
  { destruct K as [(_ & _ & _ & _ & <-)|K]; [left; left; reflexivity|right; exact K]. }
  split; [apply (q_heap _ _ (quiet_load ss id _ _ _ E))|exact D].
Qed.

(** An instruction that writes the register. *)
Lemma yreg_code : forall s m s1 m1 M0 L fp n v id r bs m2, yreg s m s1 m1 M0 L fp n v id r ->
  runs bs m1 m2 -> regs m2 = regs m1 -> mem m2 = mem m1 ->
  yreg s m (in_code (code s1 ++ bs) s1) m2 M0 L fp n v id r.
Proof.
  intros s m s1 m1 M0 L fp n v id r bs m2 (A & B & C & D & E & F & G) R Hr Hm.
  split; [apply sim_code; eapply sim_same; eassumption|].
  split; [eapply trans_trans; [exact B|exists bs; split; [reflexivity|exact R]]|].
  split; [exact C|]. split; [exact D|]. split; [exact E|]. split; [exact F|exact G].
Qed.
Lemma yreg_write : forall s m s1 m1 M0 L fp n v id r bs m2 size w, yreg s m s1 m1 M0 L fp n v id r ->
  runs bs m1 m2 -> wrote m1 m2 r size w -> n <= size -> is_size_P size ->
  yreg s m (in_code (code s1 ++ bs) s1) m2 M0 L fp n (w mod 2 ^ (8 * n)) id r.
Proof.
  intros s m s1 m1 M0 L fp n v id r bs m2 size w Y R W Hn Hs. destruct (yreg_facts _ _ _ _ _ _ _ _ _ _ _ Y) as (_ & _ & _ & Mr & _).
  destruct Y as (A & B & C & D & E & F & G).
  split; [apply sim_code; eapply sim_write_head; eassumption|].
  split; [eapply trans_trans; [exact B|exists bs; split; [reflexivity|exact R]]|].
  split; [exact C|]. split; [exact D|]. split; [exact E|]. split; [exact F|exact G].
Qed.

Lemma ext_inv : forall p opc ext id s u s', emit_reg_extended_op p opc ext id s = Done (u, s') ->
  exists l r bs, nth_error (heap s) id = Some l /\ l_state l = Loaded r /\ emit_register_op p opc ext r (l_size l) = Done bs /\
    s' = in_code (code s ++ bs) s.
Proof.
  intros p opc ext id s u s' E. unfold emit_reg_extended_op in E. unbind E l s1 E1. apply get_inv' in E1. destruct E1 as (El & ->).
  destruct (l_state l) as [r| | | |] eqn:S; try discriminate. unfold emit_op in E. unbind E bs s1 E1. apply lift_inv' in E1.
  destruct E1 as (Hb & ->). apply out_inv in E. exists l, r, bs. auto.
Qed.
Lemma rrop_inv : forall p opc a b s u s', emit_register_register p opc a b s = Done (u, s') ->
  exists la lb ra rb bs, nth_error (heap s) a = Some la /\ nth_error (heap s) b = Some lb /\ l_state la = Loaded ra /\ l_state lb = Loaded rb /\
    l_size la = l_size lb /\ emit_register_op p opc ra rb (l_size la) = Done bs /\ s' = in_code (code s ++ bs) s.
Proof.
  intros p opc a b s u s' E. unfold emit_register_register in E. unbind E la s1 E1. apply get_inv' in E1. destruct E1 as (Ea & ->).
  unbind E lb s1 E1. apply get_inv' in E1. destruct E1 as (Eb & ->).
  destruct (l_state la) as [ra| | | |] eqn:Sa; try discriminate. destruct (l_state lb) as [rb| | | |] eqn:Sb; try discriminate.
  unbind E u1 s1 E1. apply assertion_inv' in E1. destruct E1 as (Hs & ->). apply Z.eqb_eq in Hs.
  unfold emit_op in E. unbind E bs s1 E1. apply lift_inv' in E1. destruct E1 as (Hb & ->). apply out_inv in E.
  exists la, lb, ra, rb, bs. auto 10.
Qed.

(** ** Unary operators *)
Lemma not_spec : forall (neg : bool) s m M0 L o id fp id' s' n, sim s m M0 ((o, id, fp) :: L) -> clear s fp -> good M0 o -> o <> Bp ->
  osize o = n -> n <> 1 ->
  (id <- emit_load_gpr ss id ;; emit_reg_extended_op no_prefix (one_byte_opcode 0xF7) (if neg then 3 else 2) id ;;; ret id) s = Done (id', s') ->
  tsa s' <= TL ->
  exists m', yields s m s' m' M0 L fp (Rv n ((if neg then - val M0 o else Z.lnot (val M0 o)) mod 2 ^ (8 * n))) id'.
Proof.
  intros neg s m M0 L o id fp id' s' n H Hc Hg Nb Zo N1 E HT. unbind E id1 s1 E1. later E Q1.
  unbind E u s2 E2. apply ret_inv in E. destruct E as (-> & ->).
  destruct (load_spec _ _ _ _ _ _ _ _ _ H Hc Hg Nb E1 ltac:(lia)) as (m1 & r & Y). rewrite Zo in Y.
  destruct (yreg_facts _ _ _ _ _ _ _ _ _ _ _ Y) as (Hr & Pr & Ir & Mr & Hn & Vr & _).
  apply ext_inv in E2. destruct E2 as (l & q & bs & El & Sl & Hbs & ->).
  assert (Ir' : in_reg s1 id1 r n) by apply Y. destruct Ir' as (l' & El' & Sl' & Zl'). assert (l' = l) by congruence. subst l'.
  assert (q = r) by congruence. subst q. rewrite Zl' in Hbs.
  pose proof (pow2_pos (8 * n) ltac:(unfold is_size_P in Hn; lia)) as Hp.
  assert (Em : emitted (bs ++ []) (requested no_prefix 0 0xF7 (if neg then 3 else 2) r false n (RmReg r)) []).
  { apply emitted_reg; [apply legal0; vm_compute; reflexivity|unfold is_register; destruct neg; lia|exact Ir|exact Hbs]. }
  rewrite app_nil_r in Em. destruct neg.
  - destruct (I_neg bs r r false n m1 Em Hn N1 Pr) as (m2 & R & W). exists m2. eapply yreg_yields.
    pose proof (yreg_write _ _ _ _ _ _ _ _ _ _ _ _ _ _ _ Y R W ltac:(lia) Hn) as Y2.
    replace ((- val M0 o) mod 2 ^ (8 * n)) with ((- regs m1 r) mod 2 ^ (8 * n)); [exact Y2|].
    rewrite <- Vr, <- (Z.sub_0_l (regs m1 r)), <- (Z.sub_0_l (regs m1 r mod _)). symmetry. apply Zminus_mod_idemp_r.
  - destruct (I_not bs r r false n m1 Em Hn N1 Pr) as (m2 & R & W). exists m2. eapply yreg_yields.
    pose proof (yreg_write _ _ _ _ _ _ _ _ _ _ _ _ _ _ _ Y R W ltac:(lia) Hn) as Y2.
    replace (Z.lnot (val M0 o) mod 2 ^ (8 * n)) with ((2 ^ (8 * n) - 1 - regs m1 r mod 2 ^ (8 * n)) mod 2 ^ (8 * n)); [exact Y2|].
    rewrite Vr. unfold Z.lnot. replace (2 ^ (8 * n) - 1 - val M0 o) with (Z.pred (- val M0 o) + 1 * 2 ^ (8 * n)) by lia.
    apply Z_mod_plus_full.
Qed.

(** ** Changing the size of an operand *)
Definition resized (s : emitter) (m : machine) (id : nat) (fp : list nat) (n' : Z) (o o' : op) : Prop :=
  (exists r n v, in_reg s id r n /\ rmap s r = Some id /\ fp = [id] /\ o = Rv n v /\ o' = Rv n' (regs m r mod 2 ^ (8 * n'))) \/
  (exists n w, o = Im n w /\ o' = Im n' w /\ fp = [id]) \/
  (exists k v, (o = Rv k v \/ exists n, o = Sl n k v) /\ o' = Sl n' k v /\ fp = [id] /\ is_size_P k /\ 0 <= v < 2 ^ (8 * k) /\
     ~ ready s id) \/
  (exists b off n, o = Lv b off n /\ o' = Lv b off n').

Lemma resize_spec : forall s m M0 L o id fp n' u s', sim s m M0 ((o, id, fp) :: L) -> o <> Bp -> is_size_P n' ->
  modify id (with_size n') s = Done (u, s') ->
  exists o' l, sim s' m M0 ((o', id, fp) :: L) /\ resized s m id fp n' o o' /\ osize o' = n' /\
    nth_error (heap s) id = Some l /\ s' = in_heap (replace_nth id (with_size n' l) (heap s)) s.
Proof.
  intros s m M0 L o id fp n' u s' H Nb Hn E. apply modify_inv in E. destruct E as (l & El & ->).
  pose proof (sim_head _ _ _ _ _ _ _ H) as Hh. pose proof (sim_wf _ _ _ _ H) as W.
  assert (N0 : id <> 0%nat).
  { intros ->. destruct (holds_id _ _ _ _ _ Hh) as [(Hx & _)|(_ & Hx)]; [congruence|]. eapply holds_nonzero; eassumption. }
  assert (Nd : NoDup fp /\ forall i, In i fp -> ~ In i (concat (map snd L))).
  { destruct H as [_ _ N]. cbn in N. destruct (NoDup_app_elim _ _ _ N) as (N1 & _ & D). auto. }
  destruct Nd as (Nd & Dj).
  assert (Ifp : In id fp) by (destruct (holds_id _ _ _ _ _ Hh) as [(Hx & _)|(_ & Hx)]; [congruence|exact Hx]).
  set (s' := in_heap (replace_nth id (with_size n' l) (heap s)) s).
  assert (Eid : nth_error (heap s') id = Some (with_size n' l)) by (cbn; eapply replace_same; exact El).
  assert (Hk : forall i, i <> id -> forall k, nth_error (heap s) i = Some k -> loc_ok s m s' m i).
  { intros i Ni k Ek. exists k, k. split; [exact Ek|]. split; [cbn; rewrite replace_diff by congruence; exact Ek|]. split; [reflexivity|].
    left. split; [reflexivity|]. intros q _ Rq. split; [exact Rq|reflexivity]. }
  assert (Sk : slots_kept s m s' m) by (split; [cbn; lia|auto]).
  assert (HL : sim s' m M0 L).
  { eapply sim_keep; [eapply sim_drop; exact H| | |exact Sk].
    - destruct W as [B Mp Ps R Ww T Mm]. split; cbn [heap rmap tsa in_heap s']; try assumption.
      + destruct B as (k & Ek & Sk' & Zk). exists k. rewrite replace_diff by exact N0. auto.
      + intros r i Er. destruct (Mp r i Er) as (Hv & k & Ek & Sk' & Zk). split; [exact Hv|].
        destruct (Nat.eq_dec id i) as [<-|Ni].
        * exists (with_size n' l). split; [exact Eid|]. assert (k = l) by congruence. subst k. cbn. auto.
        * exists k. rewrite replace_diff by exact Ni. auto.
      + intros i k Ek. destruct (Nat.eq_dec id i) as [<-|Ni].
        * assert (k = with_size n' l) by (cbn in Eid; congruence). subst k. cbn. apply (Ps _ _ El).
        * rewrite replace_diff in Ek by exact Ni. apply (Ps _ _ Ek).
    - intros i Hi. destruct (sim_ids _ _ _ _ _ (sim_drop _ _ _ _ _ H) Hi) as (k & Ek).
      apply (Hk i) with (k := k); [|exact Ek]. intros ->. exact (Dj _ Ifp Hi). }
  assert (G : exists o', holds s' m o' id fp /\ resized s m id fp n' o o' /\ osize o' = n').
  { destruct Hh as [|id l0 q n v E0 S0 Z P R V|id l0 t n v E0 S0 Z P T V|id l0 n w E0 S0 Z P
     |id l0 ib off n b fp E0 S0 Z Hb|id l0 t n k v E0 S0 Z P K T V]; try congruence; assert (l0 = l) by congruence; subst l0.
    - exists (Rv n' (regs m q mod 2 ^ (8 * n'))). split; [|split; [left; exists q, n, v|reflexivity]].
      + eapply HReg; [exact Eid|exact S0|reflexivity|exact Hn|exact R|reflexivity].
      + split; [exists l; auto|]. auto.
    - exists (Sl n' n v). split; [|split; [right; right; left; exists n, v|reflexivity]].
      + eapply HSl; [exact Eid|exact S0|reflexivity|exact Hn|exact P|exact T|exact V].
      + split; [left; reflexivity|]. split; [reflexivity|]. split; [reflexivity|]. split; [exact P|]. split.
        * rewrite <- V. pose proof (load_range (Z.to_nat n) (mem m) (bpv - ss - t)) as Lr.
          replace (8 * Z.of_nat (Z.to_nat n)) with (8 * n) in Lr by (unfold is_size_P in P; lia). exact Lr.
        * intros (r & x & l1 & E1 & S1 & _). congruence.
    - exists (Im n' w). split; [|split; [right; left; exists n, w; auto|reflexivity]].
      eapply HIm; [exact Eid|exact S0|reflexivity|exact Hn].
    - exists (Lv b off n'). split; [|split; [right; right; right; exists b, off, n; auto|reflexivity]].
      eapply HLv; [exact Eid|exact S0|reflexivity|]. inversion Nd as [|? ? Ni Nd']; subst.
      eapply (holds_keep ss TL regs0 H_ss H_bp); [exact Hb|apply (wf_tsa _ _ _ W)| |exact Sk].
      intros i Hi. destruct (holds_ids _ _ _ _ _ Hb i Hi) as (k & Ek). apply (Hk i) with (k := k); [|exact Ek].
      intros ->. contradiction.
    - exists (Sl n' k v). split; [|split; [right; right; left; exists k, v|reflexivity]].
      + eapply HSl; [exact Eid|exact S0|reflexivity|exact Hn|exact K|exact T|exact V].
      + split; [right; exists n; reflexivity|]. split; [reflexivity|]. split; [reflexivity|]. split; [exact K|]. split.
        * rewrite <- V. pose proof (load_range (Z.to_nat k) (mem m) (bpv - ss - t)) as Lr.
          replace (8 * Z.of_nat (Z.to_nat k)) with (8 * k) in Lr by (unfold is_size_P in K; lia). exact Lr.
        * intros (r & x & l1 & E1 & S1 & _). congruence. }
  destruct G as (o' & G1 & G2 & G3). exists o', l. split; [apply sim_cons; assumption|]. auto.
Qed.

(** The state after a resize, for the bookkeeping. *)
Lemma resize_frame : forall s id l n' fp, nth_error (heap s) id = Some l -> In id fp ->
  frame s (in_heap (replace_nth id (with_size n' l) (heap s)) s) fp.
Proof. intros s id l n' fp E Hi j k Ej N. left. cbn. rewrite replace_diff by congruence. exact Ej. Qed.
Lemma resize_clear : forall s id l n' fp, nth_error (heap s) id = Some l -> clear s fp ->
  clear (in_heap (replace_nth id (with_size n' l) (heap s)) s) fp.
Proof.
  intros s id l n' fp E C i k Hi Ek. cbn in Ek. destruct (Nat.eq_dec id i) as [<-|N].
  - rewrite (replace_same _ _ _ _ _ E) in Ek. assert (k = with_size n' l) by congruence. subst k. exact (C _ _ Hi E).
  - rewrite replace_diff in Ek by exact N. exact (C _ _ Hi Ek).
Qed.

Lemma mod_mod_le : forall a k n, 0 <= k <= n -> (a mod 2 ^ n) mod 2 ^ k = a mod 2 ^ k.
Proof.
  intros a k n H. apply (mod_le (a mod 2 ^ n) a k n H). apply Z.mod_mod.
  pose proof (pow2_pos n ltac:(lia)). lia.
Qed.

Definition not_im (o : op) : Prop := forall n w, o <> Im n w.

(** Truncation. *)
Lemma truncate_spec : forall s m M0 L o id fp n' id' s', sim s m M0 ((o, id, fp) :: L) -> clear s fp -> good M0 o -> o <> Bp ->
  is_size_P n' -> n' <= osize o -> is_size_P (osize o) ->
  (modify id (with_size n') ;;; ret id) s = Done (id', s') ->
  exists o', yields s m s' m M0 L fp o' id' /\ good M0 o' /\ o' <> Bp /\ osize o' = n' /\ val M0 o' = val M0 o mod 2 ^ (8 * n') /\
    (not_im o -> not_im o') /\ (forall n w, o = Im n w -> o' = Im n' w) /\ (forall b off n, o' = Lv b off n -> exists n0, o = Lv b off n0).
Proof.
  intros s m M0 L o id fp n' id' s' H Hc Hg Nb Hn Hle Ho E. unbind E u s1 E1. apply ret_inv in E. destruct E as (-> & ->).
  destruct (resize_spec _ _ _ _ _ _ _ _ _ _ H Nb Hn E1) as (o' & l & H' & Rs & Z' & El & Es).
  assert (Ifp : In id fp) by (destruct (holds_id _ _ _ _ _ (sim_head _ _ _ _ _ _ _ H)) as [(Hx & _)|(_ & Hx)]; [congruence|exact Hx]).
  exists o'. split.
  { exists fp. split; [exact H'|]. rewrite Es. split; [apply trans_refl; reflexivity|].
    split; [apply (frame_weaken _ _ _ _ (resize_frame s id l n' fp El Ifp)); intros i Hi; right; exact Hi|].
    split; [apply resize_clear; assumption|]. split; [auto|]. cbn. rewrite length_replace. lia. }
  unfold is_size_P in Hn, Ho.
  destruct Rs as [(r & n & v & Ir & Mr & -> & -> & ->)|[(n & w & -> & -> & ->)|[(k & v & Ho' & -> & -> & Kk & Rv_ & _)|(b & off & n & -> & ->)]]];
    cbn [osize val good] in *.
  - split; [exact I|]. split; [discriminate|]. split; [reflexivity|].
    destruct (loads_reg _ _ _ _ _ _ _ _ _ H Ir) as (_ & _ & _ & _ & Vr & _). split; [|split; [|split]; intros; discriminate].
    rewrite <- Vr. symmetry. apply mod_mod_le. lia.
  - split; [exact I|]. split; [discriminate|]. split; [reflexivity|]. split; [symmetry; apply mod_mod_le; lia|].
    split; [intro X; destruct (X n w eq_refl)|]. split; [intros n0 w0 X; injection X as <- <-; reflexivity|intros; discriminate].
  - split; [destruct Ho' as [->|(n & ->)]; cbn in *; lia|]. split; [discriminate|]. split; [reflexivity|].
    split; [|split; [intros ? ? ?; discriminate|split; [intros; destruct Ho' as [->|(? & ->)]; discriminate|intros; discriminate]]].
    destruct Ho' as [->|(n & ->)]; cbn [val osize] in *; [reflexivity|]. symmetry. apply mod_mod_le. lia.
  - split; [destruct Hg as (G1 & G2 & G3); split; [exact G1|]; split; [exact G2|]; intros i Hi; apply G3; lia|].
    split; [discriminate|]. split; [reflexivity|]. split; [|split; [intros ? ? ?; discriminate|split; [intros; discriminate|intros b0 off0 n0 X; injection X as <- <- _; eexists; reflexivity]]].
    rewrite <- (load_prefix (Z.to_nat n) (Z.to_nat n')) by lia. f_equal. f_equal. lia.
Qed.

(** ** Conversions *)
(** The instruction with opcode [o] of map [mp] loads [F] of a [from]-byte operand into a register of [size] bytes. *)
Definition converts (mp o from size : Z) (F : Z -> Z) : Prop := legal_opcode mp o /\
  forall bs reg base hi rm m, emitted bs (requested no_prefix mp o reg base hi size rm) [] -> plain_reg reg -> rm_ok rm ->
  exists m', runs bs m m' /\ wrote m m' reg size (F (rmval m from rm)).

Lemma cast_spec : forall mp opc from size F s m M0 L o id fp id' s',
  converts mp opc from size F -> is_size_P from -> is_size_P size -> from <= size ->
  sim s m M0 ((o, id, fp) :: L) -> clear s fp -> good M0 o -> o <> Bp -> not_im o -> osize o = from ->
  emit_integer_cast ss id size (opcode_bytes mp opc) s = Done (id', s') -> tsa s' <= TL ->
  exists m' r, yreg s m s' m' M0 L fp size (F (val M0 o) mod 2 ^ (8 * size)) id' r /\
    (4 <= size -> regs m' r = F (val M0 o) mod 2 ^ (8 * size)).
Proof.
  intros mp opc from size F s m M0 L o id fp id' s' (Lg & HF) Hf Hz Hle H Hc Hg Nb Ni Zo E HT.
  unfold emit_integer_cast in E. unbind E u s1 E1.
  destruct (resize_spec _ _ _ _ _ _ _ _ _ _ H Nb Hz E1) as (o1 & l & H1 & Rs & Z1 & El & Es1).
  assert (Ifp : In id fp) by (destruct (holds_id _ _ _ _ _ (sim_head _ _ _ _ _ _ _ H)) as [(Hx & _)|(_ & Hx)]; [congruence|exact Hx]).
  assert (F1 : frame s s1 fp) by (rewrite Es1; apply resize_frame; assumption).
  assert (C1 : clear s1 fp) by (rewrite Es1; apply resize_clear; assumption).
  assert (T1 : trans s m s1 m) by (rewrite Es1; apply trans_refl; reflexivity).
  assert (N1 : length (heap s1) = length (heap s)) by (rewrite Es1; cbn; apply length_replace).
  unbind E l1 s2 E2. apply get_inv' in E2. destruct E2 as (El1 & ->).
  assert (l1 = with_size size l) by (rewrite Es1 in El1; cbn in El1; rewrite (replace_same _ _ _ _ _ El) in El1; congruence). subst l1.
  change (l_state (with_size size l)) with (l_state l) in E.
  assert (N0 : id <> 0%nat).
  { intros ->. eapply holds_nonzero; [apply H|eapply sim_head, H|exact Ifp]. }
  destruct (l_state l) as [r0|w|ib idx sc off|c|] eqn:S.
  - (* in a register *)
    assert (Hr : exists n v, in_reg s id r0 n /\ rmap s r0 = Some id /\ fp = [id] /\ o = Rv n v /\ o1 = Rv size (regs m r0 mod 2 ^ (8 * size))).
    { destruct Rs as [(r & n & v & (lr & Er & Sr & Zr) & Mr & Fr & Or & O1)|[(n & w & -> & _)|[(k & v & _ & _ & _ & _ & _ & Nr)|(b & off & n & -> & _)]]].
      - assert (r = r0) by congruence. subst r. exists n, v. split; [exists lr; auto|auto].
      - destruct (Ni n w eq_refl).
      - destruct Nr. exists r0, (l_size l), l. auto.
      - exfalso. pose proof (sim_head _ _ _ _ _ _ _ H) as Hh. inversion Hh; congruence. }
    destruct Hr as (n & v & Ir & Mr & -> & -> & ->). cbn [osize] in Zo. subst n. cbn [val] in *.
    destruct (loads_reg _ _ _ _ _ _ _ _ _ H Ir) as (_ & Vo & _ & _ & Vr & _).
    destruct (volatile_plain r0 Vo) as (Pr & Irg & _).
    unbind E u2 s2 E2. apply ret_inv in E. destruct E as (-> & ->). apply rrop_inv in E2.
    destruct E2 as (la & lb & ra & rb & bs & Ea & Eb & Sa & Sb & _ & Hbs & ->).
    assert (la = with_size size l) by congruence. assert (lb = with_size size l) by congruence. subst la lb.
    cbn [l_state with_size l_size] in *. assert (ra = r0) by congruence. assert (rb = r0) by congruence. subst ra rb.
    pose proof (emitted_reg mp opc r0 r0 size bs [] Lg Irg Irg Hbs) as Em. rewrite app_nil_r in Em.
    destruct (HF bs r0 r0 false (RmReg r0) m Em Pr Pr) as (m2 & R & Wr). cbn [rmval] in Wr. rewrite Vr in Wr.
    assert (Mr1 : rmap s1 r0 = Some id) by (rewrite Es1; exact Mr).
    pose proof (sim_write_head _ _ _ _ _ _ _ _ _ _ _ _ H1 Wr Mr1 ltac:(lia) Hz) as H2.
    exists m2, r0. split; [|apply (w_full _ _ _ _ _ Wr)].
    split; [apply sim_code; exact H2|]. split; [eapply trans_trans; [exact T1|exists bs; split; [reflexivity|exact R]]|].
    split; [apply (frame_weaken _ _ _ _ F1); intros i Hi; right; exact Hi|]. split; [exact C1|].
    split; [left; left; reflexivity|]. split; [cbn; lia|]. exists (with_size size l). auto.
  - (* an immediate *)
    exfalso. pose proof (sim_head _ _ _ _ _ _ _ H) as Hh. inversion Hh; try congruence; subst; eapply Ni; reflexivity.
  - (* in memory *)
    assert (Ho1 : good M0 (base_of o1) /\ osize (base_of o1) = 8 /\ readable M0 o1 from /\ peek M0 o1 from = val M0 o).
    { destruct Rs as [(r & n & v & (lr & Er & Sr & Zr) & _)|[(n & w & -> & _)|[(k & v & Ho & -> & _ & Kk & Rk & _)|(b & off' & n & -> & ->)]]];
        [congruence|destruct (Ni n w eq_refl)| |].
      - cbn [base_of good osize readable peek val]. split; [exact I|]. split; [reflexivity|]. unfold is_size_P in *.
        destruct Ho as [->|(n & ->)]; cbn [osize good val] in *; subst from.
        + split; [lia|]. rewrite mod_mod_le by lia. apply Z.mod_small. exact Rk.
        + split; [lia|]. rewrite mod_mod_le by lia. reflexivity.
      - cbn [base_of good osize readable peek val] in *. subst from. destruct Hg as (G1 & G2 & G3). auto. }
    destruct Ho1 as (Gb & Z8 & Rd & Pk).
    unbind E r s2 E2. unbind E u3 s3 E3. unbind E u4 s4 E4. later E Q4. pose proof (q_tsa _ _ (quiet_free _ _ _ _ E4)) as Q3.
    pose proof (q_tsa _ _ (quiet_rr ss _ _ _ _ _ _ _ E3)) as Q2.
    destruct (allocate_spec _ _ _ _ _ _ H1 E2 ltac:(lia)) as (m2 & Sp & Hr & Mr).
    destruct (volatile_plain r Hr) as (Pr & Irg & _).
    assert (C2 : clear s2 fp) by (eapply spills_clear; [exact Sp| |exact C1]; intros i Hi; eapply ids_exist; [exact H1|exact Hi]).
    pose proof (sp_sim _ _ _ _ _ _ Sp) as H2.
    assert (El2 : nth_error (heap s2) id = Some (with_size size l)).
    { destruct (sp_frame _ _ _ _ _ _ Sp id _ El1 (fun x => x)) as [X|(_ & rr & t & X & _)]; [exact X|cbn in X; congruence]. }
    destruct (rr_spec (emit_load_gpr ss) no_prefix _ r id None s2 u3 s3 m2 M0 L o1 fp (with_size size l) ib idx sc off load_ok_emit (quiet_load ss) H2 El2 S
               (or_introl C2) Gb Z8 E3 ltac:(lia))
      as (m3 & s3' & rb & bs & fp1 & T3 & H3 & F3 & _ & Hbs & Hosz & Es3 & Hrb & Hrbv & Hs32 & Hval & Hmap & Hclr & Hfp1 & Hin1 & _).
    rewrite Z1 in Hbs.
    pose proof (emitted_rel mp opc r rb off size None bs Lg Irg Hrb I Hbs) as Em. cbn [immediate_bytes] in Em.
    destruct (HF _ r rb _ (RmMem (BaseReg rb) None off) m3 Em Pr I) as (m4 & R4 & Wr).
    rewrite rmval_rel, Hval, Pk in Wr by (assumption || (unfold is_size_P in Hf; lia)).
    destruct (sim_write_any _ _ _ _ _ _ _ _ _ _ _ H3 Wr Hr) as (o' & H4 & _).
    { intros k Ek. destruct (Hmap r k Ek) as [Hk|Hk]; [congruence|left; exact Hk]. }
    apply sim_code with (c := code s3' ++ fst bs) in H4. rewrite <- Es3 in H4.
    destruct (free_spec _ _ _ _ _ _ _ _ _ H4 E4) as (Fr & H5 & F5 & T5).
    destruct (loaded_spec r size s4 id' s' m4 M0 L H5 E Hr Hz) as (Hid & _ & Hcd & _ & Hh & Hm & H6).
    rewrite (w_value _ _ _ _ _ Wr) in H6.
    assert (Ln : (length (heap s) <= length (heap s3))%nat).
    { pose proof (q_heap _ _ (quiet_rr ss _ _ _ _ _ _ _ E3)). pose proof (sp_len _ _ _ _ _ _ Sp). lia. }
    assert (L3 : length (heap s3) = length (heap s3')) by (rewrite Es3; reflexivity).
    pose proof (f_len _ _ _ _ _ Fr) as L4.
    exists m4, r. split; [|apply (w_full _ _ _ _ _ Wr)].
    split; [exact H6|]. split.
    { eapply trans_trans; [exact T1|]. eapply trans_trans; [apply Sp|]. eapply trans_trans; [exact T3|].
      eapply trans_trans with (b := s3) (mb := m4); [exists (fst bs); split; [rewrite Es3; reflexivity|exact R4]|].
      eapply trans_trans; [exact T5|]. apply trans_refl. exact Hcd. }
    split.
    { apply (frame_weaken s s' fp); [|intros i Hi; right; exact Hi].
      eapply frame_trans with (b := s1) (f2 := fp); [exact F1| |auto].
      eapply frame_trans with (b := s2) (f2 := fp); [eapply frame_weaken; [apply Sp|intros ? []]| |auto].
      eapply frame_trans with (b := s3') (f2 := fp1); [exact F3| |].
      - eapply frame_trans with (b := s4) (f2 := fp1); [rewrite Es3 in F5; exact F5| |auto].
        intros i k Ek _. left. rewrite Hh. apply nth_error_old, Ek.
      - intros i Hi Lt. destruct (Hfp1 i Hi); [assumption|lia]. }
    split. { intros i k [<-|[]] Ek. rewrite Hh, Hid, nth_error_new in Ek. injection Ek as <-. split; reflexivity. }
    split; [right; lia|]. split; [rewrite Hh, app_length; cbn; lia|].
    exists (mkloc (Loaded r) size 0 0). split; [rewrite Hh, Hid; apply nth_error_new|auto].
  - exfalso. pose proof (sim_head _ _ _ _ _ _ _ H) as Hh. inversion Hh; congruence.
  - exfalso. pose proof (sim_head _ _ _ _ _ _ _ H) as Hh. inversion Hh; congruence.
Qed.

Lemma converts_extend : forall sx from size, from = 1 \/ from = 2 \/ (from = 4 /\ sx = true) -> is_size_P size -> size <> 1 ->
  converts (fst (ext_opcode sx from)) (snd (ext_opcode sx from)) from size (extended sx from).
Proof.
  intros sx from size Hf Hz H1. split.
  - destruct Hf as [->|[->|(-> & ->)]]; [apply legal1; left; destruct sx; reflexivity|apply legal1; left; destruct sx; reflexivity|apply legal0; reflexivity].
  - intros bs reg base hi rm m Em Pr Hrm. destruct (I_extend bs sx from reg base hi size rm m Em Hf Hz H1 Pr Hrm) as (m' & R & W & _). eauto.
Qed.
Lemma converts_mov32 : converts 0 0x8B 4 4 (fun v => v).
Proof.
  split; [apply legal0; reflexivity|]. intros bs reg base hi rm m Em Pr Hrm.
  destruct (I_mov bs reg base hi 4 rm m Em ltac:(unfold is_size_P; lia) Pr Hrm) as (m' & R & W & _). eauto.
Qed.

(** Immediates are loaded with the new size. *)
Lemma cast_im_spec : forall op size s m M0 L n w id fp id' s', is_size_P size ->
  sim s m M0 ((Im n w, id, fp) :: L) -> clear s fp ->
  emit_integer_cast ss id size op s = Done (id', s') -> tsa s' <= TL ->
  exists m' r, yreg s m s' m' M0 L fp size (w mod 2 ^ (8 * size)) id' r /\ (4 <= size -> regs m' r = w mod 2 ^ (8 * size)).
Proof.
  intros op size s m M0 L n w id fp id' s' Hz H Hc E HT. unfold emit_integer_cast in E. unbind E u s1 E1.
  destruct (resize_spec _ _ _ _ _ _ _ _ _ _ H ltac:(discriminate) Hz E1) as (o1 & l & H1 & Rs & Z1 & El & Es1).
  assert (Hh : l_state l = Immediate w /\ fp = [id]).
  { pose proof (sim_head _ _ _ _ _ _ _ H) as Hh. inversion Hh; subst. split; congruence. }
  destruct Hh as (S & ->).
  assert (F1 : frame s s1 [id]) by (rewrite Es1; apply resize_frame; [exact El|left; reflexivity]).
  assert (C1 : clear s1 [id]) by (rewrite Es1; apply resize_clear; assumption).
  assert (T1 : trans s m s1 m) by (rewrite Es1; apply trans_refl; reflexivity).
  assert (N1 : length (heap s1) = length (heap s)) by (rewrite Es1; cbn; apply length_replace).
  assert (o1 = Im size w).
  { destruct Rs as [(r & a & b & _ & _ & _ & X & _)|[(a & b & X & -> & _)|[(k & v & [X|(y & X)] & _)|(b & off & y & X & _)]]]; congruence. }
  subst o1.
  unbind E l1 s2 E2. apply get_inv' in E2. destruct E2 as (El1 & ->).
  assert (l1 = with_size size l) by (rewrite Es1 in El1; cbn in El1; rewrite (replace_same _ _ _ _ _ El) in El1; congruence). subst l1.
  change (l_state (with_size size l)) with (l_state l) in E. rewrite S in E.
  unfold emit_load_gpr in E. cbn [load_gpr] in E. rewrite (bind_done _ _ _ _ _ _ _ (get_done _ _ _ El1)) in E.
  change (l_state (with_size size l)) with (l_state l) in E. rewrite S in E.
  unbind E r s2 E2. later E Q2.
  destruct (allocate_spec _ _ _ _ _ _ H1 E2 ltac:(lia)) as (m2 & Sp & Hr & Mr).
  destruct (volatile_plain r Hr) as (Pr & Irg & _).
  pose proof (sp_sim _ _ _ _ _ _ Sp) as H2.
  assert (El2 : nth_error (heap s2) id = Some (with_size size l)).
  { eapply frame_unloaded; [apply Sp|exact El1|intros []|intros q; cbn; congruence]. }
  unfold load_into_specific_with in E. rewrite (bind_done _ _ _ _ _ _ _ (get_done _ _ _ El2)) in E.
  unbind E u3 s3 E3. apply assertion_inv' in E3. destruct E3 as (_ & ->).
  change (l_state (with_size size l)) with (l_state l) in E. rewrite S in E. cbn [l_size with_size] in E.
  assert (F2 : frame s s2 [id]).
  { eapply frame_trans with (b := s1) (f2 := [id]); [exact F1| |auto]. eapply frame_weaken; [apply Sp|intros ? []]. }
  assert (N2 : length (heap s2) = length (heap s)) by (rewrite (sp_len _ _ _ _ _ _ Sp); exact N1).
  assert (T2 : trans s m s2 m2) by (eapply trans_trans; [exact T1|apply Sp]).
  assert (NL : ~ In id (concat (map snd L))).
  { destruct H as [_ _ N]. cbn in N. inversion N; assumption. }
  pose proof (sim_drop _ _ _ _ _ H2) as H2'.
  destruct (w =? 0) eqn:W0.
  - apply Z.eqb_eq in W0. subst w.
    unbind E u4 s4 E4. destruct (specific_spec _ _ _ _ _ _ _ H2' E4 ltac:(later E Q4; lia)) as (_ & mx & _ & _ & _ & Same).
    destruct (Same Mr) as (-> & _). clear mx Same.
    unbind E id4 s4 E5. unbind E u6 s6 E6. apply ret_inv in E. destruct E as (-> & ->).
    destruct (loaded_spec r size s2 id4 s4 m2 M0 L H2' E5 Hr Hz) as (Hid & _ & Hcd & _ & Hh & Hm & H4).
    apply rrop_inv in E6. destruct E6 as (la & lb & ra & rb & bs & Ea & Eb & Sa & Sb & _ & Hbs & ->).
    assert (N4 : nth_error (heap s4) id4 = Some (mkloc (Loaded r) size 0 0)) by (rewrite Hh, Hid; apply nth_error_new).
    assert (la = mkloc (Loaded r) size 0 0) by congruence. assert (lb = mkloc (Loaded r) size 0 0) by congruence. subst la lb. cbn [l_state l_size] in Sa, Sb, Hbs.
    assert (ra = r) by congruence. assert (rb = r) by congruence. subst ra rb.
    pose proof (emitted_reg 0 0x33 r r size bs [] (legal0 0x33 eq_refl) Irg Irg Hbs) as Em. rewrite app_nil_r in Em.
    destruct (I_xor_self bs r size m2 Em Hz Pr) as (m6 & R6 & W6).
    assert (Mr4 : rmap s4 r = Some id4) by (rewrite Hm, Z.eqb_refl; reflexivity).
    exists m6, r. split; [|intro; rewrite (w_full _ _ _ _ _ W6) by assumption; reflexivity].
    split; [apply sim_code; eapply sim_write_head; [exact H4|exact W6|exact Mr4|lia|exact Hz]|].
    split; [eapply trans_trans; [exact T2|]; exists bs; split; [cbn; rewrite Hcd; reflexivity|exact R6]|].
    split.
    { apply (frame_weaken s _ [id]); [|intros i Hi; right; exact Hi].
      eapply frame_trans with (b := s2) (f2 := [id]); [exact F2| |auto].
      intros i k Ek _. left. cbn. rewrite Hh. apply nth_error_old, Ek. }
    split. { intros i k [<-|[]] Ek. cbn in Ek. rewrite N4 in Ek. injection Ek as <-. split; reflexivity. }
    split; [right; lia|]. split; [cbn; rewrite Hh, app_length; cbn; lia|].
    exists (mkloc (Loaded r) size 0 0). auto.
  - unbind E u4 s4 E4. apply out_inv in E4. subst s4.
    destruct (I_mov_imm r size w m2 Pr Hz) as (m4 & R4 & W4 & _).
    assert (H4 : sim (in_code (code s2 ++ emit_mov_immediate r size w) s2) m4 M0 L).
    { apply sim_code. eapply sim_write; [exact H2'|exact W4|exact Hr|congruence]. }
    unbind E u5 s5 E5.
    destruct (specific_spec _ _ _ _ _ _ _ H4 E5 ltac:(later E Q5; lia)) as (_ & mx & _ & _ & _ & Same).
    destruct (Same Mr) as (-> & _). clear mx Same.
    destruct (loaded_spec r size _ id' s' m4 M0 L H4 E Hr Hz) as (Hid & _ & Hcd & _ & Hh & Hm & H5).
    cbn [heap code rmap in_code] in *. rewrite (w_value _ _ _ _ _ W4) in H5.
    assert (N4 : nth_error (heap s') id' = Some (mkloc (Loaded r) size 0 0)) by (rewrite Hh, Hid; apply nth_error_new).
    exists m4, r. split; [|apply (w_full _ _ _ _ _ W4)].
    split; [exact H5|].
    split; [eapply trans_trans; [exact T2|]; exists (emit_mov_immediate r size w); split; [exact Hcd|exact R4]|].
    split.
    { apply (frame_weaken s _ [id]); [|intros i Hi; right; exact Hi].
      eapply frame_trans with (b := s2) (f2 := [id]); [exact F2| |auto].
      intros i k Ek _. left. rewrite Hh. apply nth_error_old, Ek. }
    split. { intros i k [<-|[]] Ek. rewrite N4 in Ek. injection Ek as <-. split; reflexivity. }
    split; [right; lia|]. split; [rewrite Hh, app_length; cbn; lia|].
    exists (mkloc (Loaded r) size 0 0). auto.
Qed.

(** Widening a register by only changing its size. *)
Lemma yreg_resize : forall s m s1 m1 M0 L fp n v id r n' u s2, yreg s m s1 m1 M0 L fp n v id r -> is_size_P n' ->
  modify id (with_size n') s1 = Done (u, s2) ->
  yreg s m s2 m1 M0 L fp n' (regs m1 r mod 2 ^ (8 * n')) id r.
Proof.
  intros s m s1 m1 M0 L fp n v id r n' u s2 Y Hn E.
  destruct (yreg_facts _ _ _ _ _ _ _ _ _ _ _ Y) as (_ & _ & _ & Mr & _ & _ & N0).
  destruct Y as (A & B & C & D & F & G & K).
  destruct (resize_spec _ _ _ _ _ _ _ _ _ _ A ltac:(discriminate) Hn E) as (o1 & l & H1 & Rs & Z1 & El & Es1).
  destruct K as (l' & El' & Sl' & Zl'). assert (l' = l) by congruence. subst l'.
  assert (o1 = Rv n' (regs m1 r mod 2 ^ (8 * n'))).
  { destruct Rs as [(q & a & b & (lq & Eq_ & Sq & _) & _ & _ & _ & ->)|[(a & b & X & _)|[(k & w & _ & _ & _ & _ & _ & Nr)|(b & off & y & X & _)]]]; try discriminate.
    - assert (q = r) by congruence. subst q. reflexivity.
    - destruct Nr. exists r, (l_size l), l. auto. }
  subst o1. split; [exact H1|]. split; [eapply trans_trans; [exact B|apply trans_refl; rewrite Es1; reflexivity]|].
  split.
  { eapply frame_trans with (b := s1) (f2 := [id]); [exact C|rewrite Es1; apply resize_frame; [exact El|left; reflexivity]|].
    intros i [<-|[]] Lt. destruct F as [F|F]; [right; exact F|lia]. }
  split; [rewrite Es1; apply resize_clear; assumption|]. split; [exact F|].
  split; [rewrite Es1; cbn; rewrite length_replace; exact G|].
  exists (with_size n' l). split; [rewrite Es1; cbn; eapply replace_same; exact El|]. auto.
Qed.

Lemma converts_val : forall sx from size s m M0 L o id fp id' s',
  from = 1 \/ from = 2 \/ (from = 4 /\ sx = true) -> is_size_P size -> from < size ->
  sim s m M0 ((o, id, fp) :: L) -> clear s fp -> good M0 o -> o <> Bp -> not_im o -> osize o = from ->
  emit_integer_cast ss id size (if sx then sign_extend_opcode from else zero_extend_opcode from) s = Done (id', s') -> tsa s' <= TL ->
  exists m', yields s m s' m' M0 L fp (Rv size (extended sx from (val M0 o) mod 2 ^ (8 * size))) id'.
Proof.
  intros sx from size s m M0 L o id fp id' s' Hf Hz Hlt H Hc Hg Nb Ni Zo E HT.
  assert (Hop : (if sx then sign_extend_opcode from else zero_extend_opcode from) = opcode_bytes (fst (ext_opcode sx from)) (snd (ext_opcode sx from))).
  { destruct Hf as [->|[->|(-> & ->)]]; [destruct sx; reflexivity|destruct sx; reflexivity|reflexivity]. }
  rewrite Hop in E.
  assert (Hn : is_size_P from) by (unfold is_size_P; lia).
  destruct (cast_spec _ _ from size (extended sx from) _ _ _ _ _ _ _ _ _ (converts_extend sx from size Hf Hz ltac:(unfold is_size_P in *; lia)) Hn Hz ltac:(lia) H Hc Hg Nb Ni Zo E HT)
    as (m' & r & Y & _).
  exists m'. eapply yreg_yields, Y.
Qed.

(** u32 to u64. *)
Lemma zx32_spec : forall s m M0 L o id fp id' s', sim s m M0 ((o, id, fp) :: L) -> clear s fp -> good M0 o -> o <> Bp ->
  osize o = 4 \/ ~ not_im o ->
  (id <- emit_integer_cast ss id 4 (one_byte_opcode 0x8B) ;; modify id (with_size 8) ;;; ret id) s = Done (id', s') -> tsa s' <= TL ->
  (not_im o -> exists m', yields s m s' m' M0 L fp (Rv 8 (val M0 o mod 2 ^ 32)) id') /\
  (forall n w, o = Im n w -> exists m', yields s m s' m' M0 L fp (Rv 8 (w mod 2 ^ 32)) id').
Proof.
  intros s m M0 L o id fp id' s' H Hc Hg Nb Hz E HT. unbind E id1 s1 E1. unbind E u s2 E2. apply ret_inv in E. destruct E as (-> & ->).
  assert (Q : tsa s1 <= TL) by (apply modify_inv in E2; destruct E2 as (? & _ & X); rewrite X in HT; exact HT).
  assert (P8 : is_size_P 8) by (unfold is_size_P; lia).
  assert (Big : forall x, (x mod 2 ^ 32) mod 2 ^ (8 * 8) = x mod 2 ^ 32).
  { intro x. apply Z.mod_small. pose proof (Z.mod_pos_bound x (2 ^ 32) ltac:(lia)). change (8 * 8) with 64. lia. }
  split.
  - intro Ni. destruct Hz as [Hz|Hz]; [|contradiction].
    destruct (cast_spec 0 0x8B 4 4 (fun v => v) _ _ _ _ _ _ _ _ _ converts_mov32 ltac:(unfold is_size_P; lia) ltac:(unfold is_size_P; lia) ltac:(lia) H Hc Hg Nb Ni Hz E1 Q)
      as (m1 & r & Y & Full).
    pose proof (yreg_resize _ _ _ _ _ _ _ _ _ _ _ _ _ _ Y P8 E2) as Y2.
    rewrite Full in Y2 by lia. change (2 ^ (8 * 4)) with (2 ^ 32) in Y2. rewrite Big in Y2. exists m1. eapply yreg_yields, Y2.
  - intros n w ->.
    destruct (cast_im_spec _ 4 _ _ _ _ _ _ _ _ _ _ ltac:(unfold is_size_P; lia) H Hc E1 Q) as (m1 & r & Y & Full).
    pose proof (yreg_resize _ _ _ _ _ _ _ _ _ _ _ _ _ _ Y P8 E2) as Y2.
    rewrite Full in Y2 by lia. change (2 ^ (8 * 4)) with (2 ^ 32) in Y2. rewrite Big in Y2. exists m1. eapply yreg_yields, Y2.
Qed.

(** ** Conditions *)
Definition truth (b : bool) : Z := if b then 1 else 0.

Lemma cond_load : forall s m M0 L id c n f k a b id' s', sim s m M0 L -> nth_error (heap s) id = Some (mkloc (Conditional c) n 0 0) ->
  fl m = Some f -> JumpSpec.compared k a b f -> emit_load_gpr ss id s = Done (id', s') -> tsa s' <= TL ->
  exists m', yields s m s' m' M0 L [] (Rv n (truth (JumpSpec.holds c k a b))) id'.
Proof.
  intros s m M0 L id c n f k a b id' s' H El Hf Hcmp E HT.
  unfold emit_load_gpr in E. cbn [load_gpr] in E. rewrite (bind_done _ _ _ _ _ _ _ (get_done _ _ _ El)) in E.
  cbn [l_state] in E. unbind E r s1 E1. later E Q1.
  destruct (allocate_spec _ _ _ _ _ _ H E1 ltac:(lia)) as (m1 & Sp & Hr & Mr).
  destruct (volatile_plain r Hr) as (Pr & Irg & _).
  pose proof (sp_sim _ _ _ _ _ _ Sp) as H1.
  assert (El1 : nth_error (heap s1) id = Some (mkloc (Conditional c) n 0 0)).
  { eapply frame_unloaded; [apply Sp|exact El|intros []|intros q; cbn; congruence]. }
  unfold load_into_specific_with in E. rewrite (bind_done _ _ _ _ _ _ _ (get_done _ _ _ El1)) in E.
  unbind E u2 s2 E2. apply assertion_inv' in E2. destruct E2 as (_ & ->). cbn [l_state l_size] in E.
  unbind E u2b s2 E2. apply assertion_inv' in E2. destruct E2 as (Hn & ->).
  assert (Hn' : n = 4 \/ n = 1) by (apply orb_true_iff in Hn; destruct Hn as [X|X]; apply Z.eqb_eq in X; auto). clear Hn.
  assert (Pn : is_size_P n) by (unfold is_size_P; lia).
  unbind E o s2 E2. apply lift_inv' in E2. destruct E2 as (Ho & ->).
  unbind E r2 s2 E2. destruct (specific_spec _ _ _ _ _ _ _ H1 E2 ltac:(later E Q2; lia)) as (_ & mx & _ & _ & _ & Same).
  destruct (Same Mr) as (-> & _). clear mx Same.
  unbind E id3 s3 E3. destruct (loaded_spec r n s1 id3 s3 m1 M0 L H1 E3 Hr Pn) as (Hid & _ & Hcd & _ & Hh & Hm & H3).
  assert (N3 : nth_error (heap s3) id3 = Some (mkloc (Loaded r) n 0 0)) by (rewrite Hh, Hid; apply nth_error_new).
  assert (Mr3 : rmap s3 r = Some id3) by (rewrite Hm, Z.eqb_refl; reflexivity).
  unbind E u4 s4 E4. apply ext_inv in E4. destruct E4 as (l4 & q & bs & E4 & S4 & Hbs & ->).
  assert (l4 = mkloc (Loaded r) n 0 0) by congruence. subst l4. cbn [l_state l_size] in S4, Hbs. assert (q = r) by congruence. subst q. clear S4 E4.
  assert (Hor : 0x90 <= o <= 0x9F) by (destruct c; cbn in Ho; try discriminate; injection Ho as <-; lia).
  pose proof (emitted_reg 1 o 0 r n bs [] (legal1 o (or_intror Hor)) ltac:(unfold is_register; lia) Irg Hbs) as Em. rewrite app_nil_r in Em.
  assert (Hf1 : fl m1 = Some f) by (rewrite (sp_fl _ _ _ _ _ _ Sp); exact Hf).
  destruct (I_set bs o 0 r false n r m1 f (JumpSpec.holds c k a b) Em Hor Pr Hf1 (JumpProofs.set_condition _ _ _ _ _ _ Ho Hcmp)) as (m4 & R4 & W4 & _).
  fold (truth (JumpSpec.holds c k a b)) in W4. set (t := truth (JumpSpec.holds c k a b)) in *.
  assert (Ht : 0 <= t <= 1) by (unfold t, truth; destruct (JumpSpec.holds c k a b); lia).
  assert (Fr : ~ In id3 (concat (map snd L))) by (rewrite Hid; eapply sim_fresh; exact H1).
  assert (H4 : sim (in_code (code s3 ++ bs) s3) m4 M0 ((Rv n (regs m4 r mod 2 ^ (8 * n)), id3, [id3]) :: L)).
  { apply sim_code. apply sim_cons.
    - eapply sim_write; [eapply sim_drop; exact H3|exact W4|exact Hr|]. intros i Ei. assert (i = id3) by congruence. subst i. exact Fr.
    - eapply HReg; [exact N3|reflexivity|reflexivity|exact Pn|exact Mr3|reflexivity].
    - constructor; [intros []|constructor].
    - intros i [<-|[]]. exact Fr. }
  assert (F4 : frame s s3 []).
  { eapply frame_trans with (b := s1) (f2 := []); [apply Sp| |auto]. intros i x Ex _. left. rewrite Hh. apply nth_error_old, Ex. }
  assert (T4 : trans s m (in_code (code s3 ++ bs) s3) m4).
  { eapply trans_trans; [apply Sp|]. exists bs. split; [cbn; rewrite Hcd; reflexivity|exact R4]. }
  assert (L3 : length (heap s3) = S (length (heap s))).
  { rewrite Hh, app_length. cbn. rewrite (sp_len _ _ _ _ _ _ Sp). lia. }
  assert (Hid' : id3 = length (heap s)) by (rewrite Hid, (sp_len _ _ _ _ _ _ Sp); reflexivity).
  assert (Cl : clear s3 [id3]).
  { intros i x [<-|[]] Ex. rewrite N3 in Ex. injection Ex as <-. split; reflexivity. }
  destruct Hn' as [->| ->].
  - (* movzx *)
    change (4 =? 1) with false in E. cbv iota in E. unbind E u5 s5 E5. apply ret_inv in E. destruct E as (-> & ->).
    apply rrop_inv in E5. destruct E5 as (la & lb & ra & rb & bs5 & Ea & Eb & Sa & Sb & _ & Hbs5 & ->). cbn [heap in_code] in Ea, Eb.
    assert (la = mkloc (Loaded r) 4 0 0) by congruence. assert (lb = mkloc (Loaded r) 4 0 0) by congruence. subst la lb. cbn [l_state l_size] in Sa, Sb, Hbs5.
    assert (ra = r) by congruence. assert (rb = r) by congruence. subst ra rb.
    pose proof (emitted_reg 1 0xB6 r r 4 bs5 [] (legal1 0xB6 (or_introl eq_refl)) Irg Irg Hbs5) as Em5. rewrite app_nil_r in Em5.
    destruct (I_extend bs5 false 1 r r false 4 (RmReg r) m4 Em5 (or_introl eq_refl) Pn ltac:(lia) Pr Pr) as (m5 & R5 & W5 & _).
    cbn [extended rmval] in W5. rewrite (w_value _ _ _ _ _ W4) in W5. change (8 * 1) with 8 in W5. rewrite (Z.mod_small t) in W5 by (change (2 ^ 8) with 256; lia).
    pose proof (sim_write_head _ _ _ _ _ _ _ _ _ _ _ _ H4 W5 Mr3 ltac:(lia) Pn) as H5.
    rewrite (Z.mod_small t) in H5 by (change (2 ^ (8 * 4)) with (2 ^ 32); lia).
    exists m5, [id3]. split; [apply sim_code; exact H5|].
    split; [eapply trans_trans; [exact T4|]; exists bs5; split; [reflexivity|exact R5]|].
    split; [apply (frame_weaken s _ []); [exact F4|intros ? []]|]. split; [exact Cl|].
    split; [intros i [<-|[]]; right; lia|]. cbn. lia.
  - change (1 =? 1) with true in E. cbv iota in E. unbind E u5 s5 E5. apply ret_inv in E5. destruct E5 as (_ & ->).
    apply ret_inv in E. destruct E as (-> & ->).
    rewrite (w_value _ _ _ _ _ W4) in H4. rewrite (Z.mod_small t) in H4 by (change (2 ^ (8 * 1)) with 256; lia).
    exists m4, [id3]. split; [exact H4|]. split; [exact T4|].
    split; [apply (frame_weaken s _ []); [exact F4|intros ? []]|]. split; [exact Cl|].
    split; [intros i [<-|[]]; right; lia|]. cbn. lia.
Qed.

(** The state after a comparison: a condition about the [k]-bit operands [a] and [b]. *)
Definition conds (s : emitter) (m : machine) (s' : emitter) (m' : machine) (M0 : Z -> Z) (L : list item)
                 (fp : list nat) (c : comp) (k a b : Z) (id : nat) : Prop :=
  sim s' m' M0 L /\ trans s m s' m' /\ frame s s' (0%nat :: fp) /\ nth_error (heap s') id = Some (mkloc (Conditional c) 4 0 0) /\
  (length (heap s) <= id)%nat /\ (length (heap s) <= length (heap s'))%nat /\ exists f, fl m' = Some f /\ JumpSpec.compared k a b f.

Lemma yields_trans : forall s m s1 m1 s' m' M0 L L' fp fp1 o id, trans s m s1 m1 -> frame s s1 (0%nat :: fp) ->
  (length (heap s) <= length (heap s1))%nat -> yields s1 m1 s' m' M0 L fp1 o id ->
  (forall i, In i fp1 -> In i fp \/ (length (heap s) <= i)%nat) -> L = L' -> yields s m s' m' M0 L' fp o id.
Proof.
  intros s m s1 m1 s' m' M0 L L' fp fp1 o id T F N (fp' & A & B & C & D & G & K) Hi <-. exists fp'.
  split; [exact A|]. split; [eapply trans_trans; eassumption|]. split.
  { eapply frame_trans; [exact F|exact C|]. intros i [<-|Hj] Lt; [left; reflexivity|].
    destruct (Hi i Hj) as [X|X]; [right; exact X|lia]. }
  split; [exact D|]. split; [|lia]. intros i Hj. destruct (G i Hj) as [X|X]; [apply Hi; exact X|right; lia].
Qed.

Lemma conds_load : forall s m s1 m1 M0 L fp c k a b id id' s', conds s m s1 m1 M0 L fp c k a b id ->
  emit_load_gpr ss id s1 = Done (id', s') -> tsa s' <= TL ->
  exists m', yields s m s' m' M0 L fp (Rv 4 (truth (JumpSpec.holds c k a b))) id'.
Proof.
  intros s m s1 m1 M0 L fp c k a b id id' s' (A & B & C & D & F & G & (f & Hf & Hc)) E HT.
  destruct (cond_load _ _ _ _ _ _ _ _ _ _ _ _ _ A D Hf Hc E HT) as (m' & Y). exists m'.
  eapply yields_trans; [exact B|exact C|exact G|exact Y|intros ? []|reflexivity].
Qed.

Lemma conds_unmapped : forall s m s1 m1 M0 L fp c k a b id, conds s m s1 m1 M0 L fp c k a b id ->
  ~ In id (concat (map snd L)) /\ id <> 0%nat /\ forall q, rmap s1 q <> Some id.
Proof.
  intros s m s1 m1 M0 L fp c k a b id (A & B & C & D & F & G & _).
  assert (X : forall x, nth_error (heap s1) id = Some x -> l_state x = Conditional c) by (intros x Ex; rewrite D in Ex; injection Ex as <-; reflexivity).
  split; [|split].
  - intro Hi. apply in_concat in Hi. destruct Hi as (fpx & Hx & Hi). apply in_map_iff in Hx. destruct Hx as (((o & j) & fpj) & Ej & Hin). cbn in Ej. subst fpj.
    pose proof (sim_holds _ _ _ _ _ _ _ A) as Hf. rewrite Forall_forall in Hf. specialize (Hf _ Hin). unfold item_ok in Hf. cbn in Hf.
    assert (Gen : forall o j fp0, EmitSim.holds ss regs0 s1 m1 o j fp0 -> ~ In id fp0).
    { clear - X. induction 1 as [|? ? ? ? ? E1 S1|? ? ? ? ? E1 S1|? ? ? ? E1 S1|? ? ? ? ? ? ? E1 S1 ? ? IH|? ? ? ? ? ? E1 S1]; cbn; try tauto;
        intros [->|Hi]; try (specialize (X _ E1); congruence); contradiction. }
    exact (Gen _ _ _ Hf Hi).
  - intros ->. destruct (wf_bp _ _ _ (sim_wf _ _ _ _ A)) as (l & El & Sl & _). specialize (X _ El). congruence.
  - intros q Eq_. destruct (wf_map _ _ _ (sim_wf _ _ _ _ A) q id Eq_) as (_ & l & El & Sl & _). specialize (X _ El). congruence.
Qed.

Lemma conds_negate : forall s m s1 m1 M0 L fp c c' k a b id, conds s m s1 m1 M0 L fp c k a b id ->
  conds s m (in_heap (replace_nth id (mkloc (Conditional c') 4 0 0) (heap s1)) s1) m1 M0 L fp c' k a b id.
Proof.
  intros s m s1 m1 M0 L fp c c' k a b id Y. destruct (conds_unmapped _ _ _ _ _ _ _ _ _ _ _ _ Y) as (N1 & N2 & N3).
  destruct Y as (A & B & C & D & F & G & K).
  split; [apply sim_set; try assumption; cbn; lia|]. split; [eapply trans_trans; [exact B|apply trans_refl; reflexivity]|].
  split.
  { intros i x Ex Ni. destruct (C i x Ex Ni) as [Z1|(Z1 & r & t & Z2 & Z3)].
    - left. cbn. rewrite replace_diff; [exact Z1|]. intros <-. pose proof (nth_error_lt _ _ _ _ Ex). lia.
    - right. split; [exact Z1|]. exists r, t. split; [exact Z2|]. cbn. rewrite replace_diff; [exact Z3|]. intros <-. pose proof (nth_error_lt _ _ _ _ Ex). lia. }
  split; [cbn; eapply replace_same; exact D|]. split; [exact F|]. split; [cbn; rewrite length_replace; exact G|exact K].
Qed.

(** A new condition after the operand has been freed. *)
Lemma free_cond : forall s m s1 m1 M0 L fp o id fp' u s2 c id' s3 k a b f,
  sim s1 m1 M0 ((o, id, fp') :: L) -> trans s m s1 m1 -> frame s s1 (0%nat :: fp) ->
  (forall i, In i fp' -> In i fp \/ (length (heap s) <= i)%nat) -> (length (heap s) <= length (heap s1))%nat ->
  fl m1 = Some f -> JumpSpec.compared k a b f ->
  free_emit_location id s1 = Done (u, s2) -> emit_location_conditional c s2 = Done (id', s3) ->
  conds s m s3 m1 M0 L fp c k a b id'.
Proof.
  intros s m s1 m1 M0 L fp o id fp' u s2 c id' s3 k a b f H T F Hi N Hf Hc E1 E2.
  destruct (free_spec _ _ _ _ _ _ _ _ _ H E1) as (Fr & H2 & F2 & T2).
  unfold emit_location_conditional, new in E2. injection E2 as <- <-. pose proof (f_len _ _ _ _ _ Fr) as L2.
  split; [apply sim_new; [exact H2|cbn; lia|cbn; lia]|].
  split; [eapply trans_trans; [exact T|]; eapply trans_trans; [exact T2|apply trans_refl; reflexivity]|].
  split.
  { eapply frame_trans with (b := s1) (f2 := fp'); [exact F| |].
    - eapply frame_trans with (b := s2) (f2 := fp'); [exact F2|apply frame_new|auto].
    - intros i Hj Lt. destruct (Hi i Hj) as [X|X]; [right; exact X|lia]. }
  split; [cbn; apply nth_error_new|]. split; [lia|]. split; [cbn; rewrite app_length; cbn; lia|]. exists f. auto.
Qed.

Lemma range_of_size : forall s m M0 o id fp, wf s m M0 -> holds s m o id fp -> good M0 o -> is_size_P (osize o) -> 0 <= val M0 o < 2 ^ (8 * osize o).
Proof.
  intros s m M0 o id fp W H G P. assert (Hp : 0 < 2 ^ (8 * osize o)) by (apply pow2_pos; unfold is_size_P in P; lia).
  destruct H as [|id l q n v E0 S0 Z P0 R V|id l t n v E0 S0 Z P0 T V|id l n w E0 S0 Z P0
     |id l ib off n b fp E0 S0 Z Hb|id l t n k v E0 S0 Z P0 K T V]; cbn [val osize] in *.
  - change (8 * 8) with 64. fold bpv. lia.
  - rewrite <- V. apply Z.mod_pos_bound. exact Hp.
  - rewrite <- V. pose proof (load_range (Z.to_nat n) (mem m) (bpv - ss - t)) as Lr.
    replace (8 * Z.of_nat (Z.to_nat n)) with (8 * n) in Lr by (unfold is_size_P in P; lia). exact Lr.
  - apply Z.mod_pos_bound. exact Hp.
  - pose proof (load_range (Z.to_nat n) M0 (wrapu 64 (val M0 b + off))) as Lr.
    replace (8 * Z.of_nat (Z.to_nat n)) with (8 * n) in Lr by (unfold is_size_P in P; lia). exact Lr.
  - apply Z.mod_pos_bound. exact Hp.
Qed.

Lemma compare_spec : forall c n lhs rhs fpl fpr ol or s id s' m M0 L,
  sim s m M0 ((ol, lhs, fpl) :: (or, rhs, fpr) :: L) -> clear s fpl -> clear s fpr -> good M0 ol -> good M0 or ->
  ol <> Bp -> or <> Bp -> osize ol = n -> osize or = n -> is_size_P n ->
  (result <- emit_binary_op ss no_prefix lhs rhs n false 7 0x3A 0x3B ;;
   free_emit_location result ;;; emit_location_conditional c) s = Done (id, s') -> tsa s' <= TL ->
  exists m', conds s m s' m' M0 L (fpl ++ fpr) c (8 * n) (val M0 ol) (val M0 or) id.
Proof.
  intros c n lhs rhs fpl fpr ol or s id s' m M0 L H Hcl Hcr Gl Gr Nl Nr Zl Zr Pn E HT.
  unbind E id1 s1 E1. unbind E u s2 E2. later E Q2. pose proof (q_tsa _ _ (quiet_free _ _ _ _ E2)) as Q1.
  assert (Ra : 0 <= val M0 ol < 2 ^ (8 * n)).
  { rewrite <- Zl. eapply range_of_size; [eapply sim_wf, H|eapply sim_head, H|exact Gl|rewrite Zl; exact Pn]. }
  assert (Rb : 0 <= val M0 or < 2 ^ (8 * n)).
  { rewrite <- Zr. pose proof (sim_drop _ _ _ _ _ H) as H'. eapply range_of_size; [eapply sim_wf, H'|eapply sim_head, H'|exact Gr|rewrite Zr; exact Pn]. }
  set (f := result_flags (8 * n) ((val M0 ol - val M0 or) mod 2 ^ (8 * n)) (val M0 ol <? val M0 or)
     (negb (wraps (8 * n) (val M0 ol) - wraps (8 * n) (val M0 or) =? wraps (8 * n) ((val M0 ol - val M0 or) mod 2 ^ (8 * n))))).
  assert (A : alu 7 (8 * n) (val M0 ol) (val M0 or) = Some (None, f)) by reflexivity.
  destruct (binary_spec 7 n (val M0 ol) lhs rhs fpl fpr ol or s id1 s1 m M0 L None f ltac:(lia) H Hcl Hcr Gl Gr Nl Nr Zl Zr eq_refl A E1 ltac:(lia))
    as (m1 & (fp' & B & C & D & _ & F & G) & Hf).
  exists m1. eapply free_cond with (f := f); try eassumption. split; [unfold is_size_P in Pn; lia|]. auto.
Qed.

Lemma compare_zero_spec : forall s m s1 m1 M0 L fp n v id r id' s', yreg s m s1 m1 M0 L fp n v id r ->
  emit_compare_to_zero id s1 = Done (id', s') -> tsa s' <= TL ->
  exists m', conds s m s' m' M0 L fp COMP_unequals (8 * n) v 0 id'.
Proof.
  intros s m s1 m1 M0 L fp n v id r id' s' Y E HT. unfold emit_compare_to_zero in E.
  destruct (yreg_facts _ _ _ _ _ _ _ _ _ _ _ Y) as (Hr & Pr & Ir & Mr & Hn & Vr & _).
  assert (K : in_reg s1 id r n) by apply Y. destruct K as (l & El & Sl & Zl).
  rewrite (bind_done _ _ _ _ _ _ _ (get_done _ _ _ El)) in E. unbind E u s2 E2. unbind E u3 s3 E3.
  apply rrop_inv in E2. destruct E2 as (la & lb & ra & rb & bs & Ea & Eb & Sa & Sb & _ & Hbs & ->).
  assert (la = l) by congruence. assert (lb = l) by congruence. subst la lb. assert (ra = r) by congruence. assert (rb = r) by congruence. subst ra rb.
  rewrite Zl in Hbs.
  assert (Em : emitted (bs ++ []) (requested no_prefix 0 (op8 n 0x84) r r false n (RmReg r)) []).
  { apply emitted_reg; [apply legal0; unfold op8; destruct (n =? 1); reflexivity|exact Ir|exact Ir|].
    unfold op8. destruct (n =? 1); exact Hbs. }
  rewrite app_nil_r in Em. destruct (I_test bs r r false n m1 Em Hn Pr) as (m2 & R & Hrg & Hmm & Hf). rewrite Vr in Hf.
  pose proof (yreg_code _ _ _ _ _ _ _ _ _ _ _ _ _ Y R Hrg Hmm) as Y2. destruct Y2 as (A & B & C & D & F & G & _).
  assert (Hv : 0 <= v < 2 ^ (8 * n)) by (rewrite <- Vr; apply Z.mod_pos_bound, pow2_pos; unfold is_size_P in Hn; lia).
  exists m2. eapply free_cond; try eassumption.
  - intros i [<-|[]]. exact F.
  - unfold JumpSpec.compared. split; [unfold is_size_P in Hn; lia|]. split; [exact Hv|]. split; [lia|].
    change (alu 7 (8 * n) v 0) with (Some (@None Z, result_flags (8 * n) ((v - 0) mod 2 ^ (8 * n)) (v <? 0)
      (negb (wraps (8 * n) v - wraps (8 * n) 0 =? wraps (8 * n) ((v - 0) mod 2 ^ (8 * n)))))).
    rewrite Z.sub_0_r, (Z.mod_small v) by exact Hv.
    assert (W0 : wraps (8 * n) 0 = 0).
    { unfold is_size_P in Hn. unfold wraps, wrapu. rewrite Z.mod_0_l by (pose proof (pow2_pos (8 * n) ltac:(lia)); lia).
      pose proof (pow2_pos (8 * n - 1) ltac:(lia)). destruct (0 <? 2 ^ (8 * n - 1)) eqn:X; [reflexivity|apply Z.ltb_ge in X; lia]. }
    rewrite W0, Z.sub_0_r, Z.eqb_refl. replace (v <? 0) with false by (symmetry; apply Z.ltb_ge; lia). reflexivity.
Qed.

(** Cast to [_Bool]. *)
Lemma to_bool_spec : forall s m M0 L o id fp id' s', sim s m M0 ((o, id, fp) :: L) -> clear s fp -> good M0 o -> o <> Bp ->
  (id <- emit_load_gpr ss id ;; c <- emit_compare_to_zero id ;; modify c (with_size 1) ;;; emit_load_gpr ss c) s = Done (id', s') ->
  tsa s' <= TL ->
  exists m', yields s m s' m' M0 L fp (Rv 1 (truth (negb (val M0 o =? 0)))) id'.
Proof.
  intros s m M0 L o id fp id' s' H Hc Hg Nb E HT. unbind E id1 s1 E1. unbind E c s2 E2. unbind E u s3 E3. later E Q3.
  apply modify_inv in E3. destruct E3 as (l & El & ->). cbn [tsa in_heap] in Q3.
  pose proof (q_tsa _ _ (quiet_compare_to_zero _ _ _ _ E2)) as Q2.
  destruct (load_spec _ _ _ _ _ _ _ _ _ H Hc Hg Nb E1 ltac:(lia)) as (m1 & r & Y).
  destruct (compare_zero_spec _ _ _ _ _ _ _ _ _ _ _ _ _ Y E2 ltac:(lia)) as (m2 & C).
  pose proof (conds_unmapped _ _ _ _ _ _ _ _ _ _ _ _ C) as (N1 & N2 & N3).
  destruct C as (A & B & F & D & N & G & (f & Hf & Hcmp)).
  assert (l = mkloc (Conditional COMP_unequals) 4 0 0) by congruence. subst l. cbn [with_size l_state l_prevent_spilling l_prevent_freeing] in *.
  set (s3 := in_heap (replace_nth c (with_size 1 (mkloc (Conditional COMP_unequals) 4 0 0)) (heap s2)) s2) in *.
  assert (H3 : sim s3 m2 M0 L) by (apply sim_set; try assumption; cbn; lia).
  destruct (cond_load s3 m2 M0 L c COMP_unequals 1 f _ _ _ id' s' H3 ltac:(cbn; eapply replace_same; exact D) Hf Hcmp E HT) as (m3 & Y3).
  exists m3. eapply yields_trans with (s1 := s3) (m1 := m2); [eapply trans_trans; [exact B|apply trans_refl; reflexivity]| | |exact Y3|intros ? []|reflexivity].
  - intros i x Ex Ni. destruct (F i x Ex Ni) as [Z1|(Z1 & q & t & Z2 & Z4)].
    + left. cbn. rewrite replace_diff; [exact Z1|]. intros <-. pose proof (nth_error_lt _ _ _ _ Ex). lia.
    + right. split; [exact Z1|]. exists q, t. split; [exact Z2|]. cbn. rewrite replace_diff; [exact Z4|]. intros <-. pose proof (nth_error_lt _ _ _ _ Ex). lia.
  - cbn. rewrite length_replace. exact G.
Qed.

(** ** Shifts *)
Lemma frame_step : forall a b c f1 f2, frame a b f1 -> frame b c f2 ->
  (forall i, In i f2 -> In i f1 \/ (length (heap a) <= i)%nat) -> frame a c f1.
Proof. intros a b c f1 f2 F G H. eapply frame_trans; [exact F|exact G|]. intros i Hi Lt. destruct (H i Hi); [assumption|lia]. Qed.

Lemma holds_size : forall s m o id fp l, holds s m o id fp -> o <> Bp -> nth_error (heap s) id = Some l -> l_size l = osize o.
Proof. intros s m o id fp l H Nb El. destruct H; cbn [osize]; congruence. Qed.

Lemma shift_ext_spec : forall opc imm s m s1 m1 M0 L fp n a id r ext v u s2,
  yreg s m s1 m1 M0 L fp n a id r ->
  emit_reg_extended_op no_prefix (one_byte_opcode opc) ext id s1 = Done (u, s2) ->
  existsb (Z.eqb opc) [0xC1; 0xD3; 0xF7] = true -> 0 <= ext < 8 ->
  (forall bs, emitted (bs ++ imm) (requested no_prefix 0 opc ext r false n (RmReg r)) imm -> exists m2, runs (bs ++ imm) m1 m2 /\ wrote m1 m2 r n v) ->
  exists m2, yreg s m (in_code (code s2 ++ imm) s2) m2 M0 L fp n (v mod 2 ^ (8 * n)) id r /\ heap s2 = heap s1.
Proof.
  intros opc imm s m s1 m1 M0 L fp n a id r ext v u s2 Y E Ho He HI.
  destruct (yreg_facts _ _ _ _ _ _ _ _ _ _ _ Y) as (Hr & Pr & Ir & Mr & Hn & Vr & _).
  apply ext_inv in E. destruct E as (l & q & bs & El & Sl & Hbs & ->).
  assert (Ir' : in_reg s1 id r n) by apply Y. destruct Ir' as (l' & El' & Sl' & Zl'). assert (l' = l) by congruence. subst l'.
  assert (q = r) by congruence. subst q. rewrite Zl' in Hbs.
  assert (Lg : legal_opcode 0 opc).
  { apply legal0. cbn [existsb] in Ho. rewrite !orb_true_iff, !Z.eqb_eq in Ho. destruct Ho as [->|[->|[->|X]]]; [reflexivity..|discriminate]. }
  assert (Em : emitted (bs ++ imm) (requested no_prefix 0 opc ext r false n (RmReg r)) imm).
  { apply emitted_reg; [exact Lg|unfold is_register; lia|exact Ir|exact Hbs]. }
  destruct (HI bs Em) as (m2 & R & W). exists m2. split; [|reflexivity].
  pose proof (yreg_write _ _ _ _ _ _ _ _ _ _ _ _ _ _ _ Y R W ltac:(lia) Hn) as Y2.
  cbn. rewrite <- app_assoc. exact Y2.
Qed.

Lemma yreg_drop : forall s m s1 m1 M0 x L fp n v id r, yreg s m s1 m1 M0 (x :: L) fp n v id r -> yreg s m s1 m1 M0 L fp n v id r.
Proof.
  intros s m s1 m1 M0 x L fp n v id r (A & B). split; [|exact B]. apply sim_swap in A. apply sim_drop in A. exact A.
Qed.
Lemma yreg_weaken : forall s m s1 m1 M0 L fp fp' n v id r, yreg s m s1 m1 M0 L fp n v id r -> (forall i, In i fp -> In i fp') ->
  yreg s m s1 m1 M0 L fp' n v id r.
Proof.
  intros s m s1 m1 M0 L fp fp' n v id r (A & B & C & D & F & G) H. split; [exact A|]. split; [exact B|].
  split; [apply (frame_weaken _ _ _ _ C); intros i [<-|Hi]; [left; reflexivity|right; auto]|]. split; [exact D|].
  split; [destruct F; auto|exact G].
Qed.

(** An operand is loaded into a register that is made free for it. *)
Lemma into_register : forall s m M0 L o id fp r id' s' r', In r volatile ->
  sim s m M0 ((o, id, fp) :: L) -> clear s fp -> good M0 o -> o <> Bp ->
  (r' <- allocate_specific_register ss r ;; emit_load_into_specific_gpr ss id r') s = Done (id', s') -> tsa s' <= TL ->
  r' = r -> exists m', yreg s m s' m' M0 L fp (osize o) (val M0 o) id' r.
Proof.
  intros s m M0 L o id fp r id' s' r0 Hr H Hc Hg Nb E HT _. unbind E r' s1 E1. later E Q1.
  destruct (specific_spec _ _ _ _ _ _ _ H E1 ltac:(lia)) as (-> & m1 & Sp & Mr & _).
  assert (C1 : clear s1 fp) by (eapply spills_clear; [exact Sp| |exact Hc]; intros i Hi; eapply ids_exist; [exact H|exact Hi]).
  unfold emit_load_into_specific_gpr in E.
  destruct (load_specific_spec (emit_load_gpr ss) s1 m1 M0 L o id fp r id' s' load_ok_emit (quiet_load ss) (sp_sim _ _ _ _ _ _ Sp) (or_introl C1) Hg Nb Hr
              ltac:(intros k Ek; congruence) E HT) as (m2 & (fp' & A & B & C & _ & F & G & K) & D).
  destruct (loads_reg _ _ _ _ _ _ _ _ _ A D) as (-> & _). exists m2.
  pose proof (sp_len _ _ _ _ _ _ Sp) as Ln.
  split; [exact A|]. split; [eapply trans_trans; [apply Sp|exact B]|].
  split.
  { apply (frame_weaken s s' fp); [|intros i Hi; right; exact Hi].
    eapply frame_step with (b := s1) (f2 := fp); [eapply frame_weaken; [apply Sp|intros ? []]|exact C|auto]. }
  split; [apply G, C1|]. split; [destruct K as [(_ & _ & _ & _ & <-)|K]; [left; left; reflexivity|right; lia]|].
  split; [|exact D]. pose proof (q_heap _ _ (quiet_load_specific ss id r _ _ _ E)). lia.
Qed.

Lemma count_spec : forall s m M0 L o id fp l id' s', sim s m M0 ((o, id, fp) :: L) -> clear s fp -> good M0 o -> o <> Bp ->
  nth_error (heap s) id = Some l ->
  (match l_state l with
   | Loaded 1 => ret id
   | _ => cl <- allocate_specific_register ss REGISTER_C ;; emit_load_into_specific_gpr ss id cl
   end) s = Done (id', s') -> tsa s' <= TL ->
  exists m', yreg s m s' m' M0 L fp (osize o) (val M0 o) id' 1.
Proof.
  intros s m M0 L o id fp l id' s' H Hc Hg Nb El E HT.
  assert (Gen : (cl <- allocate_specific_register ss REGISTER_C ;; emit_load_into_specific_gpr ss id cl) s = Done (id', s') ->
    exists m', yreg s m s' m' M0 L fp (osize o) (val M0 o) id' 1).
  { intro E'. eapply (into_register s m M0 L o id fp 1 id' s' 1); try eassumption; [unfold volatile; cbn; auto|reflexivity]. }
  destruct (l_state l) as [q|w|b i sc off|c|] eqn:S; try (apply Gen; exact E).
  destruct (Z.eq_dec q 1) as [->|Nq].
  - apply ret_inv in E. destruct E as (-> & ->).
    destruct (holds_loaded s m M0 o id fp 1 l (sim_head _ _ _ _ _ _ _ H) (sim_wf _ _ _ _ H) El S) as (Zl & P & V & [(X & _)|(( v & Ho) & Hv & Mr & ->)]); [congruence|].
    assert (Ho' : o = Rv (osize o) (val M0 o)) by (rewrite Ho; reflexivity).
    exists m. split; [rewrite <- Ho'; exact H|]. split; [apply trans_refl; reflexivity|]. split; [apply frame_refl|].
    split; [exact Hc|]. split; [left; left; reflexivity|]. split; [lia|]. exists l. auto.
  - apply Gen. destruct q as [|[p|p|]|p]; try exact E. congruence.
Qed.

Lemma shift_spec : forall ext s m M0 L ol lhs fpl or rhs fpr n v id' s', n = 4 \/ n = 8 -> 0 <= ext < 8 ->
  sim s m M0 ((or, rhs, fpr) :: (ol, lhs, fpl) :: L) -> clear s fpl -> clear s fpr -> good M0 ol -> good M0 or ->
  ol <> Bp -> or <> Bp -> osize ol = n -> is_size_P (osize or) ->
  X64Machine.shift ext (8 * n) (val M0 ol) (shift_count n (val M0 or mod 256)) = Some v ->
  emit_shift ss lhs rhs ext s = Done (id', s') -> tsa s' <= TL ->
  exists m', yields s m s' m' M0 L (fpl ++ fpr) (Rv n (v mod 2 ^ (8 * n))) id'.
Proof.
  intros ext s m M0 L ol lhs fpl or rhs fpr n v id' s' Hn He H Hcl Hcr Gl Gr Nl Nr Zl Pr_ Hv E HT.
  assert (Pn : is_size_P n) by (unfold is_size_P; lia).
  unfold emit_shift in E. unbind E l s0 E0. apply get_inv' in E0. destruct E0 as (El & ->).
  unbind E lr s0 E0. apply get_inv' in E0. destruct E0 as (Er & ->).
  pose proof (sim_swap _ _ _ _ _ _ H) as Hs.
  pose proof (holds_size _ _ _ _ _ _ (sim_head _ _ _ _ _ _ _ Hs) Nl El) as Zll. rewrite Zl in Zll.
  destruct (l_state lr) as [q|w|b0 i0 sc0 off0|c0|] eqn:S.
  2: { (* an immediate amount *)
    assert (Ho : or = Im (osize or) w).
    { pose proof (sim_head _ _ _ _ _ _ _ H) as Hh. inversion Hh; subst; try congruence. assert (l0 = lr) by congruence. subst l0. cbn. congruence. }
    unbind E u1 s1 E1. apply assertion_inv' in E1. destruct E1 as (_ & ->). unbind E id1 s1 E1. unbind E u2 s2 E2. unbind E u3 s3 E3.
    apply ret_inv in E. destruct E as (-> & ->). apply out_inv in E3. subst s3.
    pose proof (q_tsa _ _ (quiet_ext_op _ _ _ _ _ _ _ E2)) as Q1. cbn [tsa in_code] in HT.
    destruct (load_spec _ _ _ _ _ _ _ _ _ Hs Hcl Gl Nl E1 ltac:(lia)) as (m1 & r & Y). rewrite Zl in Y. apply yreg_drop in Y.
    destruct (yreg_facts _ _ _ _ _ _ _ _ _ _ _ Y) as (Hr & Prr & Ir & Mr & _ & Vr & _).
    rewrite Zll in E2. replace (n =? 1) with false in E2 by (symmetry; apply Z.eqb_neq; lia).
    destruct (shift_ext_spec 0xC1 (emit w) _ _ _ _ _ _ _ _ _ _ _ ext v _ _ Y E2 eq_refl He) as (m2 & Y2 & _).
    { intros bs Em. eapply I_shift_imm; [exact Em|exact Pn|lia|exact Prr|]. rewrite Vr.
      replace (w mod 256) with (val M0 or mod 256); [exact Hv|]. rewrite Ho. cbn [val].
      change 256 with (2 ^ 8). apply mod_mod_le. unfold is_size_P in Pr_. lia. }
    exists m2. eapply yreg_yields. eapply yreg_weaken; [exact Y2|]. intros i Hi. apply in_or_app. left. exact Hi. }
  all: (* an amount in CL *)
    unbind E cnt s1 E1; unbind E u2 s2 E2; unbind E id3 s3 E3; unbind E u4 s4 E4; unbind E u5 s5 E5; unbind E u6 s6 E6; unbind E u7 s7 E7;
    apply ret_inv in E; destruct E as (-> & ->).
  all: assert (E1' : (match l_state lr with Loaded 1 => ret rhs
                 | _ => cl <- allocate_specific_register ss REGISTER_C ;; emit_load_into_specific_gpr ss rhs cl end) s = Done (cnt, s1))
    by (rewrite S; exact E1); clear E1 S.
  all: pose proof (q_tsa _ _ (quiet_free _ _ _ _ E7)) as Q6; pose proof (q_tsa _ _ (quiet_allow_spilling _ _ _ _ E6)) as Q5;
    assert (Q4 : tsa s5 = tsa s4) by (apply modify_inv in E5; destruct E5 as (? & _ & ->); reflexivity);
    pose proof (q_tsa _ _ (quiet_ext_op _ _ _ _ _ _ _ E4)) as Q3;
    pose proof (q_tsa _ _ (quiet_load ss _ _ _ _ E3)) as Q2; pose proof (q_tsa _ _ (quiet_prevent_spilling ss _ _ _ _ E2)) as Q1.
  all: destruct (count_spec _ _ _ _ _ _ _ _ _ _ H Hcr Gr Nr Er E1' ltac:(lia)) as (m1 & Yc);
    destruct (yreg_facts _ _ _ _ _ _ _ _ _ _ _ Yc) as (_ & _ & _ & Mc & Pk & Vc & Nc);
    destruct Yc as (A1 & T1 & F1 & C1 & I1 & N1 & (lc & Ec & Sc & Zc)).
  all: pose proof (lock_inv _ _ _ _ _ Ec ltac:(intros; congruence) E2) as X2; subst s2.
  all: pose proof (wf_ps _ _ _ (sim_wf _ _ _ _ A1) _ _ Ec) as Pc.
  all: assert (A2 : sim (in_heap (replace_nth cnt (with_ps 1 lc) (heap s1)) s1) m1 M0 ((ol, lhs, fpl) :: (Rv (osize or) (val M0 or), cnt, [cnt]) :: L))
    by (apply sim_swap; eapply sim_locks; [exact A1|exact Ec|split; reflexivity|cbn; lia|cbn; lia]).
  all: assert (Dj : forall i, In i fpl -> ~ In i fpr) by (intros i Hi; exact (sim_disjoint _ _ _ (ol, lhs, fpl) (or, rhs, fpr) _ i Hs Hi)).
  all: assert (N0 : ~ In 0%nat fpl) by (eapply holds_nonzero; [eapply sim_wf, Hs|eapply sim_head, Hs]).
  all: assert (Cn : ~ In cnt fpl) by (intro Hi; destruct I1 as [X|X]; [exact (Dj _ Hi X)|destruct (ids_exist _ _ _ _ _ _ _ _ Hs Hi) as (y & Ey); pose proof (nth_error_lt _ _ _ _ Ey); lia]).
  all: assert (C1l : clear s1 fpl) by (eapply frame_clear; [exact F1|exact Hcl|intros i Hi [<-|X]; [exact (N0 Hi)|exact (Dj i Hi X)]|intros i Hi; eapply ids_exist; [exact Hs|exact Hi]]).
  all: set (s2 := in_heap (replace_nth cnt (with_ps 1 lc) (heap s1)) s1) in *.
  all: assert (C2 : clear s2 fpl) by (intros i x Hi Ex; cbn in Ex; rewrite replace_diff in Ex by congruence; exact (C1l i x Hi Ex)).
  all: destruct (load_spec _ _ _ _ _ _ _ _ _ A2 C2 Gl Nl E3 ltac:(lia)) as (m3 & r & Y3); rewrite Zl in Y3;
    destruct (yreg_facts _ _ _ _ _ _ _ _ _ _ _ Y3) as (Hr & Prr & Ir & Mr & _ & Vr & _).
  all: assert (L2 : nth_error (heap s2) cnt = Some (with_ps 1 lc)) by (cbn; eapply replace_same; exact Ec).
  all: assert (L3 : nth_error (heap s3) cnt = Some (with_ps 1 lc))
    by (eapply frame_locked; [apply Y3|exact L2|intros [X|X]; [congruence|exact (Cn X)]|cbn; lia]).
  all: assert (A3 : sim s3 m3 M0 ((Rv (osize or) (val M0 or), cnt, [cnt]) :: (Rv n (val M0 ol), id3, [id3]) :: L)) by (apply sim_swap; apply Y3).
  all: assert (K3 : in_reg s3 cnt 1 (osize or)) by (exists (with_ps 1 lc); auto).
  all: destruct (loads_reg _ _ _ _ _ _ _ _ _ A3 K3) as (_ & _ & Mc3 & _ & Vc3 & _).
  all: destruct (shift_ext_spec 0xD3 [] _ _ _ _ _ _ _ _ _ _ _ ext v _ _ Y3 E4 eq_refl He) as (m4 & Y4 & Hh4);
    [intros bs Em; rewrite app_nil_r in *; eapply I_shift_cl; [exact Em|exact Pn|lia|exact Prr|]; rewrite Vr;
     replace (regs m3 RCX mod 256) with (val M0 or mod 256); [exact Hv|]; rewrite <- Vc3; change 256 with (2 ^ 8); change RCX with 1; apply mod_mod_le; unfold is_size_P in Pr_; lia|].
  all: rewrite app_nil_r in Y4; replace (in_code (code s4) s4) with s4 in Y4 by (destruct s4; reflexivity).
  all: assert (X5 : s5 = s4)
    by (apply modify_inv in E5; destruct E5 as (l5 & El5 & ->); destruct Y4 as (_ & _ & _ & _ & _ & _ & (l6 & El6 & _ & Zl6));
        assert (l6 = l5) by congruence; subst l6; rewrite Zll, <- Zl6; apply same_size; exact El5); subst s5.
  all: assert (L4 : nth_error (heap s4) cnt = Some (with_ps 1 lc)) by (rewrite Hh4; exact L3).
  all: destruct (allow_inv _ _ _ _ _ L4 ltac:(intros; cbn; congruence) E6) as (X6 & _); rewrite with_ps_back in X6.
  all: destruct Y4 as (A4 & T4 & F4 & C4 & I4 & N4 & K4).
  all: assert (A6 : sim s6 m4 M0 ((Rv (osize or) (val M0 or), cnt, [cnt]) :: (Rv n (v mod 2 ^ (8 * n)), id3, [id3]) :: L))
    by (rewrite X6; apply sim_swap; eapply sim_locks; [exact A4|exact L4|split; reflexivity|lia|lia]).
  all: destruct (free_spec _ _ _ _ _ _ _ _ _ A6 E7) as (Fr & A7 & F7 & T7).
  all: assert (Ni : id3 <> cnt) by (intros ->; destruct A6 as [_ _ Nd]; cbn in Nd; inversion Nd as [|? ? X _]; apply X; left; reflexivity).
  all: assert (Len : length (heap s2) = length (heap s1)) by (cbn; apply length_replace).
  all: exists m4, [id3]; split; [exact A7|]; split; [eapply trans_trans; [exact T1|]; eapply trans_trans with (b := s2) (mb := m1); [apply trans_refl; reflexivity|];
      eapply trans_trans; [exact T4|]; eapply trans_trans with (b := s6) (mb := m4); [apply trans_refl; rewrite X6; reflexivity|exact T7]|].
  all: assert (F02 : frame s s2 (0%nat :: fpl ++ fpr))
    by (eapply frame_step with (b := s1) (f2 := [cnt]);
        [apply (frame_weaken _ _ _ _ F1); intros i [<-|Hi]; [left; reflexivity|right; apply in_or_app; right; exact Hi]
        |apply frame_lock with (f := with_ps 1); left; reflexivity
        |intros i [<-|[]]; destruct I1 as [X|X]; [left; right; apply in_or_app; right; exact X|right; exact X]]).
  all: split;
    [eapply frame_step with (b := s2) (f2 := 0%nat :: cnt :: fpl); [exact F02| |];
     [eapply frame_step with (b := s4) (f2 := [cnt]); [apply (frame_weaken _ _ _ _ F4); intros i [<-|Hi]; [left; reflexivity|right; right; exact Hi]| |intros i [<-|[]]; left; right; left; reflexivity];
      eapply frame_step with (b := s6) (f2 := [cnt]); [rewrite X6; intros i x Ex Hni; left; cbn; rewrite replace_diff; [exact Ex|intros <-; apply Hni; left; reflexivity]|exact F7|auto]
     |intros i [<-|[<-|Hi]]; [left; left; reflexivity|destruct I1 as [X|X]; [left; right; apply in_or_app; right; exact X|right; exact X]|left; right; apply in_or_app; left; exact Hi]]|].
  all: split; [intros i x [<-|[]] Ex; rewrite (f_heap _ _ _ _ _ Fr) in Ex by (intros [X|[]]; congruence); rewrite X6 in Ex; cbn in Ex; rewrite replace_diff in Ex by congruence; exact (C4 _ _ (or_introl eq_refl) Ex)|].
  all: split; [intros i [<-|[]]; destruct I4 as [X|X]; [left; apply in_or_app; left; exact X|right; lia]|].
  all: rewrite (f_len _ _ _ _ _ Fr), X6; cbn; rewrite length_replace; lia.
Qed.

(** ** Multiplication and division *)
Lemma sim_pair : forall s m M0 L n a d low up lo hi m', (n = 4 \/ n = 8) ->
  sim s m M0 ((Rv n a, low, [low]) :: (Rv n d, up, [up]) :: L) -> rmap s 0 = Some low -> rmap s 2 = Some up ->
  pair_written m m' n lo hi ->
  sim s m' M0 ((Rv n (lo mod 2 ^ (8 * n)), low, [low]) :: (Rv n (hi mod 2 ^ (8 * n)), up, [up]) :: L).
Proof.
  intros s m M0 L n a d low up lo hi m' Hn H Ml Mu (Po & Pa & Pd & Pm).
  assert (Pn : is_size_P n) by (unfold is_size_P; lia).
  assert (Rg : forall x, 0 <= x mod 2 ^ (8 * n) < 2 ^ 64).
  { intro x. pose proof (pow2_pos (8 * n) ltac:(lia)). pose proof (Z.mod_pos_bound x (2 ^ (8 * n)) ltac:(lia)).
    pose proof (Z.pow_le_mono_r 2 (8 * n) 64 ltac:(lia) ltac:(lia)). lia. }
  assert (Mm : forall x, (x mod 2 ^ (8 * n)) mod 2 ^ (8 * n) = x mod 2 ^ (8 * n)).
  { intro x. pose proof (pow2_pos (8 * n) ltac:(lia)). rewrite Z.mod_mod by lia. reflexivity. }
  set (mid := mkmachine (fun q => if q =? RAX then lo mod 2 ^ (8 * n) else regs m q) (mem m) (fl m) (pc m)).
  assert (W1 : wrote m mid RAX n lo).
  { constructor; unfold mid; cbn [regs mem]; try rewrite Z.eqb_refl.
    - intros q Hq. replace (q =? RAX) with false by (symmetry; apply Z.eqb_neq; exact Hq). reflexivity.
    - apply Mm.
    - intros _. reflexivity.
    - intros _. unfold word. apply Rg.
    - reflexivity. }
  assert (W2 : wrote mid m' RDX n hi).
  { constructor; unfold mid; cbn [regs mem].
    - intros q Hq. destruct (q =? RAX) eqn:X; [apply Z.eqb_eq in X; subst q; exact Pa|apply Z.eqb_neq in X; apply Po; assumption].
    - rewrite Pd. apply Mm.
    - intros _. exact Pd.
    - intros _. rewrite Pd. unfold word. apply Rg.
    - exact Pm. }
  pose proof (sim_write_head _ _ _ _ _ _ _ _ _ _ _ _ H W1 Ml ltac:(lia) Pn) as H1. apply sim_swap in H1.
  pose proof (sim_write_head _ _ _ _ _ _ _ _ _ _ _ _ H1 W2 Mu ltac:(lia) Pn) as H2. apply sim_swap in H2. exact H2.
Qed.

(** What the instruction does with the operands [a] (with its extension [d] above) and [b]. *)
Definition divides (ext n a d b : Z) (high : bool) (v : Z) : Prop := 0 <= ext < 8 /\
  forall bs base hi rm m, emitted bs (requested no_prefix 0 0xF7 ext base hi n rm) [] -> rm_ok rm ->
  regs m RAX mod 2 ^ (8 * n) = a -> regs m RDX mod 2 ^ (8 * n) = d -> rmval m n rm = b ->
  exists m' x y, runs bs m m' /\ pair_written m m' n x y /\ (if high then y else x) mod 2 ^ (8 * n) = v.

Lemma dmm_operand : forall ext n a d b high v s m M0 L or rhs fpr low up ll lu lr u s', n = 4 \/ n = 8 ->
  divides ext n a d b high v ->
  sim s m M0 ((or, rhs, fpr) :: (Rv n a, low, [low]) :: (Rv n d, up, [up]) :: L) ->
  nth_error (heap s) low = Some ll -> l_state ll = Loaded 0 -> l_size ll = n -> l_prevent_spilling ll <> 0 ->
  nth_error (heap s) up = Some lu -> l_state lu = Loaded 2 -> l_size lu = n -> l_prevent_spilling lu <> 0 ->
  clear s fpr -> good M0 or -> or <> Bp -> osize or = n -> val M0 or = b -> nth_error (heap s) rhs = Some lr ->
  (match l_state lr with
  | RegRel _ _ _ _ =>
      if 4 <=? l_size lr then
        register_relative_with (emit_load_gpr ss) no_prefix (one_byte_opcode 0xF7) ext rhs None ;;;
        free_emit_location rhs
      else
        loaded <- emit_load_gpr ss rhs ;;
        emit_reg_extended_op no_prefix (one_byte_opcode 0xF7) ext loaded ;;;
        free_emit_location loaded
  | _ =>
      loaded <- emit_load_gpr ss rhs ;;
      emit_reg_extended_op no_prefix (one_byte_opcode 0xF7) ext loaded ;;;
      free_emit_location loaded
  end) s = Done (u, s') -> tsa s' <= TL ->
  exists m' x y, sim s' m' M0 ((Rv n (x mod 2 ^ (8 * n)), low, [low]) :: (Rv n (y mod 2 ^ (8 * n)), up, [up]) :: L) /\
    trans s m s' m' /\ frame s s' (0%nat :: fpr) /\ nth_error (heap s') low = Some ll /\ nth_error (heap s') up = Some lu /\
    (length (heap s) <= length (heap s'))%nat /\ (if high then y else x) mod 2 ^ (8 * n) = v.
Proof.
  intros ext n a d b high v s m M0 L or rhs fpr low up ll lu lr u s' Hn (He & HI) H El Sl Zl Pl Eu Su Zu Pu Hc Hg Nb Zo Hv Er E HT.
  assert (Pn : is_size_P n) by (unfold is_size_P; lia).
  assert (Ids : low <> 0%nat /\ up <> 0%nat /\ ~ In low fpr /\ ~ In up fpr).
  { pose proof (sim_drop _ _ _ _ _ H) as H1. pose proof (sim_drop _ _ _ _ _ H1) as H2.
    pose proof (holds_nonzero _ _ _ _ _ _ (sim_wf _ _ _ _ H) (sim_head _ _ _ _ _ _ _ H1)).
    pose proof (holds_nonzero _ _ _ _ _ _ (sim_wf _ _ _ _ H) (sim_head _ _ _ _ _ _ _ H2)).
    destruct H as [_ _ Nd]. cbn in Nd. apply NoDup_app_elim in Nd. destruct Nd as (_ & _ & Dj).
    repeat split; intro X; try (subst; cbn in *; tauto); apply (Dj _ X); cbn; auto. }
  destruct Ids as (L0 & U0 & Lf & Uf).
  pose proof (holds_size _ _ _ _ _ _ (sim_head _ _ _ _ _ _ _ H) Nb Er) as Zlr. rewrite Zo in Zlr.
  assert (Gen : (loaded <- emit_load_gpr ss rhs ;; emit_reg_extended_op no_prefix (one_byte_opcode 0xF7) ext loaded ;;; free_emit_location loaded) s = Done (u, s') ->
    exists m' x y, sim s' m' M0 ((Rv n (x mod 2 ^ (8 * n)), low, [low]) :: (Rv n (y mod 2 ^ (8 * n)), up, [up]) :: L) /\
    trans s m s' m' /\ frame s s' (0%nat :: fpr) /\ nth_error (heap s') low = Some ll /\ nth_error (heap s') up = Some lu /\
    (length (heap s) <= length (heap s'))%nat /\ (if high then y else x) mod 2 ^ (8 * n) = v).
  { clear E. intro E. unbind E id1 s1 E1. unbind E u2 s2 E2.
    pose proof (q_tsa _ _ (quiet_free _ _ _ _ E)) as Q2. pose proof (q_tsa _ _ (quiet_ext_op _ _ _ _ _ _ _ E2)) as Q1.
    destruct (load_spec _ _ _ _ _ _ _ _ _ H Hc Hg Nb E1 ltac:(lia)) as (m1 & r & Y). rewrite Zo, Hv in Y.
    destruct (yreg_facts _ _ _ _ _ _ _ _ _ _ _ Y) as (Hr & Pr & Ir & Mr & _ & Vr & _).
    destruct Y as (A & T & F & C & I1 & N1 & (l1 & E11 & S11 & Z11)).
    apply ext_inv in E2. destruct E2 as (l2 & q & bs & E2 & S2 & Hbs & ->). assert (l2 = l1) by congruence. subst l2.
    assert (q = r) by congruence. subst q. rewrite Z11 in Hbs.
    assert (El1 : nth_error (heap s1) low = Some ll) by (eapply frame_locked; [exact F|exact El|intros [X|X]; [congruence|exact (Lf X)]|exact Pl]).
    assert (Eu1 : nth_error (heap s1) up = Some lu) by (eapply frame_locked; [exact F|exact Eu|intros [X|X]; [congruence|exact (Uf X)]|exact Pu]).
    assert (A1 : sim s1 m1 M0 ((Rv n a, low, [low]) :: (Rv n d, up, [up]) :: (Rv n b, id1, [id1]) :: L)).
    { eapply sim_perm; [|exact A]. rewrite perm_swap. apply perm_skip. apply perm_swap. }
    assert (Il : in_reg s1 low 0 n) by (exists ll; auto). assert (Iu : in_reg s1 up 2 n) by (exists lu; auto).
    destruct (loads_reg _ _ _ _ _ _ _ _ _ A1 Il) as (_ & _ & Ml & _ & Va & _).
    destruct (loads_reg _ _ _ _ _ _ _ _ _ (sim_drop _ _ _ _ _ A1) Iu) as (_ & _ & Mu & _ & Vd & _).
    assert (Em : emitted (bs ++ []) (requested no_prefix 0 0xF7 ext r false n (RmReg r)) []).
    { apply emitted_reg; [apply legal0; reflexivity|unfold is_register; lia|exact Ir|exact Hbs]. }
    rewrite app_nil_r in Em.
    destruct (HI bs r false (RmReg r) m1 Em Pr Va Vd Vr) as (m2 & x & y & R2 & P2 & Hxy).
    pose proof (sim_pair _ _ _ _ _ _ _ _ _ _ _ _ Hn A1 Ml Mu P2) as A2.
    assert (A3 : sim (in_code (code s1 ++ bs) s1) m2 M0 ((Rv n b, id1, [id1]) :: (Rv n (x mod 2 ^ (8 * n)), low, [low]) :: (Rv n (y mod 2 ^ (8 * n)), up, [up]) :: L)).
    { apply sim_code. eapply sim_perm; [|exact A2]. symmetry. rewrite perm_swap. apply perm_skip. apply perm_swap. }
    destruct (free_spec _ _ _ _ _ _ _ _ _ A3 E) as (Fr & A4 & F4 & T4).
    assert (Ni : ~ In low [id1] /\ ~ In up [id1]).
    { destruct A3 as [_ _ Nd]. cbn in Nd. inversion Nd as [|? ? X _]. split; intros [<-|[]]; apply X; cbn; auto. }
    exists m2, x, y. split; [exact A4|].
    split; [eapply trans_trans; [exact T|]; eapply trans_trans with (b := in_code (code s1 ++ bs) s1) (mb := m2); [exists bs; split; [reflexivity|exact R2]|exact T4]|].
    split; [eapply frame_step with (b := s1) (f2 := [id1]); [exact F|exact F4|]; intros i [<-|[]]; destruct I1 as [X|X]; [left; right; exact X|right; exact X]|].
    split; [rewrite (f_heap _ _ _ _ _ Fr) by tauto; exact El1|]. split; [rewrite (f_heap _ _ _ _ _ Fr) by tauto; exact Eu1|].
    split; [rewrite (f_len _ _ _ _ _ Fr); cbn; lia|exact Hxy]. }
  destruct (l_state lr) as [q|w|ib idx sc off|c|] eqn:S; try (apply Gen; exact E).
  rewrite Zlr in E. replace (4 <=? n) with true in E by (symmetry; apply Z.leb_le; lia).
  unbind E u1 s1 E1. pose proof (q_tsa _ _ (quiet_free _ _ _ _ E)) as Q1.
  assert (N0 : rhs <> 0%nat).
  { intros ->. destruct (holds_id _ _ _ _ _ (sim_head _ _ _ _ _ _ _ H)) as [(Hx & _)|(_ & Hx)]; [congruence|].
    eapply holds_nonzero; [eapply sim_wf, H|eapply sim_head, H|exact Hx]. }
  destruct (peek_val _ _ _ _ _ _ _ _ _ _ _ (sim_head _ _ _ _ _ _ _ H) Hg N0 Er S ltac:(rewrite Zo; exact Pn)) as (Rd & Pk & Gb & Z8).
  rewrite Zo in Rd, Pk.
  destruct (rr_spec (emit_load_gpr ss) no_prefix _ ext rhs None s u1 s1 m M0 _ or fpr lr ib idx sc off load_ok_emit (quiet_load ss) H Er S
               (or_introl Hc) Gb Z8 E1 ltac:(lia))
      as (m2 & s2 & rb & bs & fp1 & T2 & A & F & _ & Hbs & Hosz & Es1 & Hrb & Hrbv & Hs32 & Hval & Hmap & Hclr & Hfp1 & Hin1 & _).
  rewrite Zo in Hbs.
  assert (El1 : nth_error (heap s2) low = Some ll) by (eapply frame_locked; [exact F|exact El|exact Lf|exact Pl]).
  assert (Eu1 : nth_error (heap s2) up = Some lu) by (eapply frame_locked; [exact F|exact Eu|exact Uf|exact Pu]).
  assert (A1 : sim s2 m2 M0 ((Rv n a, low, [low]) :: (Rv n d, up, [up]) :: (reloaded M0 or, rhs, fp1) :: L)).
  { eapply sim_perm; [|exact A]. rewrite perm_swap. apply perm_skip. apply perm_swap. }
  assert (Il : in_reg s2 low 0 n) by (exists ll; auto). assert (Iu : in_reg s2 up 2 n) by (exists lu; auto).
  destruct (loads_reg _ _ _ _ _ _ _ _ _ A1 Il) as (_ & _ & Ml & _ & Va & _).
  destruct (loads_reg _ _ _ _ _ _ _ _ _ (sim_drop _ _ _ _ _ A1) Iu) as (_ & _ & Mu & _ & Vd & _).
  pose proof (emitted_rel 0 0xF7 ext rb off n None bs (legal0 0xF7 eq_refl) ltac:(unfold is_register; lia) Hrb I Hbs) as Em. cbn [immediate_bytes] in Em.
  destruct (HI _ rb _ (RmMem (BaseReg rb) None off) m2 Em I Va Vd) as (m3 & x & y & R3 & P3 & Hxy).
  { rewrite rmval_rel, Hval by (assumption || lia). rewrite Pk. exact Hv. }
  pose proof (sim_pair _ _ _ _ _ _ _ _ _ _ _ _ Hn A1 Ml Mu P3) as A2.
  assert (A3 : sim s1 m3 M0 ((reloaded M0 or, rhs, fp1) :: (Rv n (x mod 2 ^ (8 * n)), low, [low]) :: (Rv n (y mod 2 ^ (8 * n)), up, [up]) :: L)).
  { rewrite Es1. apply sim_code. eapply sim_perm; [|exact A2]. symmetry. rewrite perm_swap. apply perm_skip. apply perm_swap. }
  destruct (free_spec _ _ _ _ _ _ _ _ _ A3 E) as (Fr & A4 & F4 & T4).
  assert (Ni : ~ In low fp1 /\ ~ In up fp1).
  { destruct A3 as [_ _ Nd]. cbn in Nd. apply NoDup_app_elim in Nd. destruct Nd as (_ & _ & Dj). split; intro X; apply (Dj _ X); cbn; auto. }
  assert (Ln : (length (heap s) <= length (heap s2))%nat).
  { pose proof (q_heap _ _ (quiet_register_relative_with _ (quiet_load ss) _ _ _ _ _ _ _ _ E1)) as Q. rewrite Es1 in Q. exact Q. }
  exists m3, x, y. split; [exact A4|].
  split; [eapply trans_trans; [exact T2|]; eapply trans_trans with (b := s1) (mb := m3); [exists (fst bs); split; [rewrite Es1; reflexivity|exact R3]|exact T4]|].
  split.
  { apply (frame_weaken s s' fpr); [|intros i Hi; right; exact Hi].
    eapply frame_step with (b := s2) (f2 := fp1); [exact F| |exact Hfp1]. rewrite Es1 in F4. exact F4. }
  split; [rewrite (f_heap _ _ _ _ _ Fr) by tauto; rewrite Es1; exact El1|]. split; [rewrite (f_heap _ _ _ _ _ Fr) by tauto; rewrite Es1; exact Eu1|].
  split; [rewrite (f_len _ _ _ _ _ Fr), Es1; exact Ln|exact Hxy].
Qed.

Lemma dmm_setup : forall (sg : bool) n a s m M0 L ol lhs fpl or rhs fpr up low s' rdx rax low0 s1 s2 s3 s4 s5 s6 s7 s8 s9 u1 u2 u3 u4 u5, n = 4 \/ n = 8 ->
  sim s m M0 ((ol, lhs, fpl) :: (or, rhs, fpr) :: L) -> clear s fpl -> clear s fpr -> good M0 ol -> ol <> Bp ->
  osize ol = n -> val M0 ol = a ->
  allocate_specific_register ss REGISTER_D s = Done (rdx, s1) ->
  emit_location_loaded rdx n s1 = Done (up, s2) ->
  prevent_spilling ss up s2 = Done (u1, s3) ->
  allocate_specific_register ss REGISTER_A s3 = Done (rax, s4) ->
  emit_location_loaded rax n s4 = Done (low0, s5) ->
  prevent_spilling ss low0 s5 = Done (u2, s6) ->
  allow_spilling low0 s6 = Done (u3, s7) ->
  emit_load_into_specific_gpr ss lhs rax s7 = Done (low, s8) ->
  prevent_spilling ss low s8 = Done (u4, s9) ->
  (if sg then out ((if n =? 8 then [0x48] else []) ++ [0x99])
   else emit_register_register no_prefix (one_byte_opcode 0x33) up up) s9 = Done (u5, s') -> tsa s' <= TL ->
  exists m' ll lu, sim s' m' M0 ((or, rhs, fpr) :: (Rv n a, low, [low]) :: (Rv n ((if sg then (if wraps (8 * n) a <? 0 then -1 else 0) else 0) mod 2 ^ (8 * n)), up, [up]) :: L) /\
    trans s m s' m' /\ frame s s' (0%nat :: fpl) /\ clear s' fpr /\
    nth_error (heap s') low = Some (with_ps 1 ll) /\ l_state ll = Loaded 0 /\ l_size ll = n /\ l_prevent_spilling ll = 0 /\ l_prevent_freeing ll = 0 /\
    nth_error (heap s') up = Some (with_ps 1 lu) /\ l_state lu = Loaded 2 /\ l_size lu = n /\ l_prevent_spilling lu = 0 /\ l_prevent_freeing lu = 0 /\
    (length (heap s) <= up)%nat /\ (In low fpl \/ (length (heap s) <= low)%nat) /\ (length (heap s) <= length (heap s'))%nat.
Proof.
  intros sg n a s m M0 L ol lhs fpl or rhs fpr up low s' rdx rax low0 s1 s2 s3 s4 s5 s6 s7 s8 s9 u1 u2 u3 u4 u5 Hn H Hcl Hcr Gl Nl Zl Hv
    E1 E2 E3 E4 E5 E6 E7 E8 E9 E10 HT.
  assert (Pn : is_size_P n) by (unfold is_size_P; lia).
  assert (Q10 : tsa s9 <= tsa s').
  { destruct sg; [apply out_inv in E10; subst s'; cbn; lia|exact (q_tsa _ _ (quiet_register_register _ _ _ _ _ _ _ E10))]. }
  pose proof (q_tsa _ _ (quiet_prevent_spilling ss _ _ _ _ E9)) as Q9.
  pose proof (q_tsa _ _ (quiet_load_specific ss _ _ _ _ _ E8)) as Q8.
  pose proof (q_tsa _ _ (quiet_allow_spilling _ _ _ _ E7)) as Q7.
  pose proof (q_tsa _ _ (quiet_prevent_spilling ss _ _ _ _ E6)) as Q6.
  pose proof (q_tsa _ _ (quiet_loaded _ _ _ _ _ E5)) as Q5.
  pose proof (q_tsa _ _ (quiet_specific ss _ _ _ _ E4)) as Q4.
  pose proof (q_tsa _ _ (quiet_prevent_spilling ss _ _ _ _ E3)) as Q3.
  pose proof (q_tsa _ _ (quiet_loaded _ _ _ _ _ E2)) as Q2.
  assert (V2 : In REGISTER_D volatile) by (unfold volatile, REGISTER_D; cbn; tauto).
  assert (V0 : In REGISTER_A volatile) by (unfold volatile, REGISTER_A; cbn; tauto).
  (* RDX *)
  destruct (specific_spec _ _ _ _ _ _ _ H E1 ltac:(lia)) as (-> & m1 & Sp1 & _ & _ & _).
  destruct (loaded_spec _ _ _ _ _ _ _ _ (sp_sim _ _ _ _ _ _ Sp1) E2 V2 Pn) as (Hup & _ & C2 & T2 & H2 & M2 & A2).
  set (lu := mkloc (Loaded REGISTER_D) n 0 0) in *.
  assert (Eu2 : nth_error (heap s2) up = Some lu).
  { rewrite H2, Hup, nth_error_app2, Nat.sub_diag by lia. reflexivity. }
  pose proof (lock_inv _ _ _ _ _ Eu2 ltac:(intros; cbn; congruence) E3) as X3.
  assert (A3 : sim s3 m1 M0 ((Rv n (regs m1 REGISTER_D mod 2 ^ (8 * n)), up, [up]) :: (ol, lhs, fpl) :: (or, rhs, fpr) :: L)).
  { rewrite X3. eapply sim_locks; [exact A2|exact Eu2|split; reflexivity|cbn; lia|cbn; lia]. }
  assert (Eu3 : nth_error (heap s3) up = Some (with_ps 1 lu)) by (rewrite X3; cbn; eapply replace_same; exact Eu2).
  (* RAX *)
  destruct (specific_spec _ _ _ _ _ _ _ A3 E4 ltac:(lia)) as (-> & m4 & Sp4 & _ & _ & _).
  destruct (loaded_spec _ _ _ _ _ _ _ _ (sp_sim _ _ _ _ _ _ Sp4) E5 V0 Pn) as (Hlow & _ & C5 & T5 & H5 & M5 & A5).
  set (l0 := mkloc (Loaded REGISTER_A) n 0 0) in *.
  assert (Eu4 : nth_error (heap s4) up = Some (with_ps 1 lu)) by (eapply frame_locked; [apply Sp4|exact Eu3|intros []|cbn; lia]).
  assert (El5 : nth_error (heap s5) low0 = Some l0).
  { rewrite H5, Hlow, nth_error_app2, Nat.sub_diag by lia. reflexivity. }
  pose proof (lock_inv _ _ _ _ _ El5 ltac:(intros; cbn; congruence) E6) as X6.
  assert (El6 : nth_error (heap s6) low0 = Some (with_ps 1 l0)) by (rewrite X6; cbn; eapply replace_same; exact El5).
  destruct (allow_inv _ _ _ _ _ El6 ltac:(intros; cbn; congruence) E7) as (X7 & _).
  assert (A7 : sim s7 m4 M0 ((Rv n (regs m4 REGISTER_A mod 2 ^ (8 * n)), low0, [low0]) :: (Rv n (regs m1 REGISTER_D mod 2 ^ (8 * n)), up, [up]) :: (ol, lhs, fpl) :: (or, rhs, fpr) :: L)).
  { rewrite X7. eapply sim_locks; [|exact El6|split; reflexivity|cbn; lia|cbn; lia].
    rewrite X6. eapply sim_locks; [exact A5|exact El5|split; reflexivity|cbn; lia|cbn; lia]. }
  assert (O7 : forall i, i <> low0 -> nth_error (heap s7) i = nth_error (heap s5) i).
  { intros i Hi. rewrite X7. cbn. rewrite replace_diff by congruence. rewrite X6. cbn. rewrite replace_diff by congruence. reflexivity. }
  assert (M7 : rmap s7 = rmap s5) by (rewrite X7, X6; reflexivity).
  assert (Nlu : low0 <> up) by (rewrite Hlow; pose proof (nth_error_lt _ _ _ _ Eu4); lia).
  assert (Len1 : length (heap s1) = length (heap s)) by apply Sp1.
  assert (Len2 : length (heap s2) = S (length (heap s))) by (rewrite H2, app_length; cbn; lia).
  assert (Len3 : length (heap s3) = S (length (heap s))) by (rewrite X3; cbn; rewrite length_replace; exact Len2).
  assert (Len4 : length (heap s4) = S (length (heap s))) by (rewrite (sp_len _ _ _ _ _ _ Sp4); exact Len3).
  assert (Len5 : length (heap s5) = S (S (length (heap s)))) by (rewrite H5, app_length; cbn; lia).
  assert (Len7 : length (heap s7) = S (S (length (heap s)))) by (rewrite X7; cbn; rewrite length_replace, X6; cbn; rewrite length_replace; exact Len5).
  assert (Eu7 : nth_error (heap s7) up = Some (with_ps 1 lu)) by (rewrite O7 by congruence; rewrite H5; apply nth_error_old, Eu4).
  (* frames *)
  assert (F3 : frame s s3 []).
  { eapply frame_step with (b := s2) (f2 := [up]).
    - eapply frame_step with (b := s1) (f2 := []); [apply Sp1| |intros ? []]. intros i l Ei _. left. rewrite H2. apply nth_error_old, Ei.
    - rewrite X3. apply frame_lock with (f := with_ps 1). left. reflexivity.
    - intros i [<-|[]]. right. lia. }
  assert (F7 : frame s s7 []).
  { eapply frame_step with (b := s4) (f2 := [low0]); [eapply frame_step with (b := s3) (f2 := []); [exact F3|apply Sp4|intros ? []]| |].
    - intros i l Ei Ni. left. rewrite O7 by (intros ->; apply Ni; left; reflexivity). rewrite H5. apply nth_error_old, Ei.
    - intros i [<-|[]]. right. lia. }
  assert (Ex : forall i, In i fpl \/ In i fpr -> exists l, nth_error (heap s) i = Some l).
  { intros i [Hi|Hi]; [eapply ids_exist; [exact H|exact Hi]|eapply ids_exist; [exact (sim_drop _ _ _ _ _ H)|exact Hi]]. }
  assert (Cl7 : clear s7 fpl) by (eapply frame_clear; [exact F7|exact Hcl|intros ? _ []|intros; apply Ex; auto]).
  assert (Cr7 : clear s7 fpr) by (eapply frame_clear; [exact F7|exact Hcr|intros ? _ []|intros; apply Ex; auto]).
  (* the dividend *)
  assert (A7' : sim s7 m4 M0 ((ol, lhs, fpl) :: (Rv n (regs m1 REGISTER_D mod 2 ^ (8 * n)), up, [up]) :: (or, rhs, fpr) :: L)).
  { apply sim_swap. eapply sim_drop. exact A7. }
  unfold emit_load_into_specific_gpr in E8.
  destruct (load_specific_spec (emit_load_gpr ss) s7 m4 M0 _ ol lhs fpl REGISTER_A low s8 load_ok_emit (quiet_load ss) A7' (or_introl Cl7) Gl Nl
              V0) as (m8 & (fp' & A8 & T8 & F8 & _ & _ & C8 & K8) & D8).
  { intros k Ek. rewrite M7, M5 in Ek. cbn in Ek. inversion Ek; subst k. right. destruct A7 as [_ _ Nd]. cbn in Nd.
    inversion Nd as [|? ? X _]. intro Y. apply X. cbn. apply in_app_or in Y. destruct Y as [Y|Y]; [right; apply in_or_app; left; exact Y|].
    cbn in Y. destruct Y as [Y|Y]; [left; exact Y|right; apply in_or_app; right; exact Y]. }
  { exact E8. } { lia. }
  rewrite Zl, Hv in *.
  destruct (loads_reg _ _ _ _ _ _ _ _ _ A8 D8) as (-> & _ & Ml8 & _ & Va8 & Nl0).
  specialize (C8 Cl7).
  destruct D8 as (ll & El8 & Sl8 & Zl8).
  destruct (C8 _ _ (or_introl eq_refl) El8) as (Ps & Pf).
  assert (Len8 : (length (heap s7) <= length (heap s8))%nat) by exact (q_heap _ _ (quiet_load_specific ss _ _ _ _ _ E8)).
  pose proof (lock_inv _ _ _ _ _ El8 ltac:(intros; congruence) E9) as X9.
  assert (Ilow : In low fpl \/ (length (heap s7) <= low)%nat).
  { destruct K8 as [(_ & _ & _ & _ & <-)|K8]; [left; left; reflexivity|right; lia]. }
  assert (Nul : low <> up).
  { destruct A8 as [_ _ Nd]. cbn in Nd. inversion Nd as [|? ? X _]. intros ->. apply X. left. reflexivity. }
  assert (Nup : ~ In up fpl).
  { intro X. destruct A7' as [_ _ Nd]. cbn in Nd. apply NoDup_app_elim in Nd. destruct Nd as (_ & _ & Dj). apply (Dj _ X). left. reflexivity. }
  assert (Eu8 : nth_error (heap s8) up = Some (with_ps 1 lu)) by (eapply frame_locked; [exact F8|exact Eu7|exact Nup|cbn; lia]).
  assert (Cr8 : clear s8 fpr).
  { eapply frame_clear; [exact F8|exact Cr7| |].
    - intros i Hi X. exact (sim_disjoint _ _ _ (ol, lhs, fpl) (or, rhs, fpr) _ i H X Hi).
    - intros i Hi. eapply ids_exist; [exact (sim_drop _ _ _ _ _ (sim_drop _ _ _ _ _ A7'))|exact Hi]. }
  assert (A9 : sim s9 m8 M0 ((Rv n (regs m1 REGISTER_D mod 2 ^ (8 * n)), up, [up]) :: (or, rhs, fpr) :: (Rv n a, low, [low]) :: L)).
  { rewrite X9. eapply sim_locks; [|exact El8|split; reflexivity|cbn; lia|cbn; lia].
    eapply sim_perm; [|exact A8]. rewrite perm_swap. apply perm_skip. apply perm_swap. }
  assert (El9 : nth_error (heap s9) low = Some (with_ps 1 ll)) by (rewrite X9; cbn; eapply replace_same; exact El8).
  assert (Eu9 : nth_error (heap s9) up = Some (with_ps 1 lu)) by (rewrite X9; cbn; rewrite replace_diff by congruence; exact Eu8).
  assert (Nlr : ~ In low fpr).
  { destruct A8 as [_ _ Nd]. cbn in Nd. inversion Nd as [|? ? X _]. intro Y. apply X. right. apply in_or_app. left. exact Y. }
  assert (Cr9 : clear s9 fpr).
  { intros i x Hi Xi. rewrite X9 in Xi. cbn in Xi. rewrite replace_diff in Xi by congruence. exact (Cr8 i x Hi Xi). }
  assert (M9 : rmap s9 = rmap s8) by (rewrite X9; reflexivity).
  assert (Ku9 : in_reg s9 up REGISTER_D n) by (exists (with_ps 1 lu); split; [exact Eu9|split; reflexivity]).
  destruct (loads_reg _ _ _ _ _ _ _ _ _ A9 Ku9) as (_ & Hr2 & Mu9 & _ & _ & _).
  assert (F9 : frame s s9 (0%nat :: fpl)).
  { eapply frame_step with (b := s8) (f2 := [low]).
    - apply (frame_weaken s s8 fpl); [|intros i Hi; right; exact Hi].
      eapply frame_step with (b := s7) (f2 := fpl); [eapply frame_weaken; [exact F7|intros ? []]|exact F8|auto].
    - rewrite X9. apply frame_lock with (f := with_ps 1). left. reflexivity.
    - intros i [<-|[]]. destruct Ilow as [X|X]; [left; right; exact X|right; lia]. }
  assert (T9 : trans s m s9 m8).
  { eapply trans_trans; [apply Sp1|]. eapply trans_trans with (b := s3) (mb := m1); [apply trans_refl; rewrite X3; cbn; exact C2|].
    eapply trans_trans; [apply Sp4|]. eapply trans_trans with (b := s7) (mb := m4); [apply trans_refl; rewrite X7, X6; cbn; exact C5|].
    eapply trans_trans; [exact T8|]. apply trans_refl. rewrite X9. reflexivity. }
  (* the upper half *)
  assert (Fin : exists bs m', s' = in_code (code s9 ++ bs) s9 /\ runs bs m8 m' /\
            wrote m8 m' RDX n (if sg then (if wraps (8 * n) a <? 0 then -1 else 0) else 0)).
  { destruct sg.
    - apply out_inv in E10. subst s'. destruct (I_cdq n m8 Hn) as (m' & R & W & _). eexists _, m'. split; [reflexivity|]. split; [exact R|].
      replace (wraps (8 * n) a) with (wraps (8 * n) (regs m8 RAX)); [exact W|].
      rewrite <- Va8. change REGISTER_A with RAX. symmetry. apply wraps_mod. apply Z.mod_mod. pose proof (pow2_pos (8 * n) ltac:(lia)). lia.
    - apply rrop_inv in E10. destruct E10 as (la & lb & ra & rb & bs & Ea & Eb & Sa & Sb & _ & Hbs & X).
      assert (la = with_ps 1 lu) by congruence. assert (lb = with_ps 1 lu) by congruence. subst la lb. cbn in Sa, Sb.
      assert (Ra : Loaded ra = Loaded RDX) by (rewrite <- Sa; reflexivity). assert (Rb : Loaded rb = Loaded RDX) by (rewrite <- Sb; reflexivity).
      inversion Ra; subst ra. inversion Rb; subst rb. change (l_size (with_ps 1 lu)) with n in Hbs.
      assert (Em : emitted (bs ++ []) (requested no_prefix 0 0x33 RDX RDX false n (RmReg RDX)) []).
      { apply emitted_reg; [apply legal0; reflexivity|unfold is_register, RDX; lia|unfold is_register, RDX; lia|exact Hbs]. }
      rewrite app_nil_r in Em.
      destruct (I_xor_self _ _ _ m8 Em Pn ltac:(unfold plain_reg, RDX; lia)) as (m' & R & W).
      exists bs, m'. split; [exact X|]. split; [exact R|exact W]. }
  destruct Fin as (bs & m' & X & R & W).
  pose proof (sim_write_head _ _ _ _ _ _ _ _ _ _ _ _ A9 W Mu9 ltac:(lia) Pn) as A10.
  exists m', ll, lu. subst s'. split.
  { apply sim_code. eapply sim_perm; [|exact A10]. rewrite perm_swap. apply perm_skip. apply perm_swap. }
  split; [eapply trans_trans; [exact T9|]; exists bs; split; [reflexivity|exact R]|].
  split; [exact F9|]. split; [exact Cr9|]. split; [exact El9|]. split; [exact Sl8|]. split; [exact Zl8|]. split; [exact Ps|]. split; [exact Pf|].
  split; [exact Eu9|]. split; [reflexivity|]. split; [reflexivity|]. split; [reflexivity|]. split; [reflexivity|].
  split; [lia|]. split; [destruct Ilow as [Y|Y]; [left; exact Y|right; lia]|].
  cbn. rewrite X9. cbn. rewrite length_replace. lia.
Qed.

Lemma dmm_spec : forall (sg is_mod : bool) exs exu n a b v s m M0 L ol lhs fpl or rhs fpr id' s', n = 4 \/ n = 8 ->
  sim s m M0 ((ol, lhs, fpl) :: (or, rhs, fpr) :: L) -> clear s fpl -> clear s fpr -> good M0 ol -> good M0 or ->
  ol <> Bp -> or <> Bp -> osize ol = n -> osize or = n -> val M0 ol = a -> val M0 or = b ->
  divides (if sg then exs else exu) n a ((if sg then (if wraps (8 * n) a <? 0 then -1 else 0) else 0) mod 2 ^ (8 * n)) b is_mod v ->
  emit_dmm ss lhs rhs n exs exu sg is_mod s = Done (id', s') -> tsa s' <= TL ->
  exists m', yields s m s' m' M0 L (fpl ++ fpr) (Rv n v) id'.
Proof.
  intros sg is_mod exs exu n a b v s m M0 L ol lhs fpl or rhs fpr id' s' Hn H Hcl Hcr Gl Gr Nl Nr Zl Zr Hva Hvb HD E HT.
  assert (Pn : is_size_P n) by (unfold is_size_P; lia).
  unfold emit_dmm in E. unbind E u0 s0 E0. apply assertion_inv' in E0. destruct E0 as (_ & ->).
  unbind E rdx s1 E1. unbind E up s2 E2. unbind E u1 s3 E3. unbind E rax s4 E4. unbind E low0 s5 E5. unbind E u2 s6 E6. unbind E u3 s7 E7.
  unbind E low s8 E8. unbind E u4 s9 E9. unbind E u5 s10 E10. unbind E lr s0 E11. apply get_inv' in E11. destruct E11 as (Er & ->).
  unbind E u6 s11 E12. unbind E u7 s12 E13. unbind E u8 s13 E14. unbind E u9 s14 E15. unbind E u10 s15 E16.
  assert (Q16 : tsa s15 <= tsa s').
  { destruct is_mod; unbind E u11 s16 E17; apply ret_inv in E; destruct E as (_ & ->); exact (q_tsa _ _ (quiet_free _ _ _ _ E17)). }
  assert (Q15 : tsa s15 = tsa s14) by (apply modify_inv in E16; destruct E16 as (? & _ & ->); reflexivity).
  assert (Q14 : tsa s14 = tsa s13) by (apply modify_inv in E15; destruct E15 as (? & _ & ->); reflexivity).
  pose proof (q_tsa _ _ (quiet_allow_spilling _ _ _ _ E14)) as Q13. pose proof (q_tsa _ _ (quiet_allow_spilling _ _ _ _ E13)) as Q12.
  assert (Q11 : tsa s10 <= tsa s11).
  { assert (G : forall x, (loaded <- emit_load_gpr ss rhs ;; emit_reg_extended_op no_prefix (one_byte_opcode 0xF7) x loaded ;;; free_emit_location loaded) s10 = Done (u6, s11) -> tsa s10 <= tsa s11).
    { intros x Ex. unbind Ex i1 t1 Ex1. unbind Ex i2 t2 Ex2. pose proof (q_tsa _ _ (quiet_load ss _ _ _ _ Ex1)).
      pose proof (q_tsa _ _ (quiet_ext_op _ _ _ _ _ _ _ Ex2)). pose proof (q_tsa _ _ (quiet_free _ _ _ _ Ex)). lia. }
    destruct (l_state lr); try (eapply G; exact E12). destruct (4 <=? l_size lr); [|eapply G; exact E12].
    unbind E12 i1 t1 Ex1. pose proof (q_tsa _ _ (quiet_register_relative_with _ (quiet_load ss) _ _ _ _ _ _ _ _ Ex1)). pose proof (q_tsa _ _ (quiet_free _ _ _ _ E12)). lia. }
  destruct (dmm_setup sg n a s m M0 L ol lhs fpl or rhs fpr up low s10 rdx rax low0 s1 s2 s3 s4 s5 s6 s7 s8 s9 u1 u2 u3 u4 u5 Hn H Hcl Hcr Gl Nl Zl Hva
    E1 E2 E3 E4 E5 E6 E7 E8 E9 E10 ltac:(lia)) as (m10 & ll & lu & A10 & T10 & F10 & C10 & El & Sl & Zll & Psl & Pfl & Eu & Su & Zlu & Psu & Pfu & Iup & Ilow & Len10).
  destruct (dmm_operand _ n a _ b is_mod v s10 m10 M0 L or rhs fpr low up (with_ps 1 ll) (with_ps 1 lu) lr u6 s11 Hn HD A10 El Sl Zll ltac:(cbn; lia) Eu Su Zlu ltac:(cbn; lia)
    C10 Gr Nr Zr Hvb Er E12 ltac:(lia)) as (m11 & x & y & A11 & T11 & F11 & El11 & Eu11 & Len11 & Hxy).
  destruct (allow_inv _ _ _ _ _ El11 ltac:(intros; cbn; congruence) E13) as (X12 & _). rewrite with_ps_back in X12.
  assert (Nul : low <> up).
  { destruct A11 as [_ _ Nd]. cbn in Nd. inversion Nd as [|? ? X _]. intros ->. apply X. left. reflexivity. }
  assert (Eu12 : nth_error (heap s12) up = Some (with_ps 1 lu)) by (rewrite X12; cbn; rewrite replace_diff by congruence; exact Eu11).
  assert (El12 : nth_error (heap s12) low = Some ll) by (rewrite X12; cbn; eapply replace_same; exact El11).
  destruct (allow_inv _ _ _ _ _ Eu12 ltac:(intros; cbn; congruence) E14) as (X13 & _). rewrite with_ps_back in X13.
  assert (Eu13 : nth_error (heap s13) up = Some lu) by (rewrite X13; cbn; eapply replace_same; exact Eu12).
  assert (El13 : nth_error (heap s13) low = Some ll) by (rewrite X13; cbn; rewrite replace_diff by congruence; exact El12).
  assert (X14 : s14 = s13).
  { apply modify_inv in E15. destruct E15 as (l & El14 & ->). assert (l = lu) by congruence. subst l. rewrite <- Zlu. apply same_size. exact Eu13. }
  assert (X15 : s15 = s13).
  { subst s14. apply modify_inv in E16. destruct E16 as (l & El14 & ->). assert (l = ll) by congruence. subst l. rewrite <- Zll. apply same_size. exact El13. }
  subst s14 s15.
  assert (A13 : sim s13 m11 M0 ((Rv n (x mod 2 ^ (8 * n)), low, [low]) :: (Rv n (y mod 2 ^ (8 * n)), up, [up]) :: L)).
  { rewrite X13. eapply sim_locks; [|exact Eu12|split; reflexivity|lia|lia].
    rewrite X12. eapply sim_locks; [exact A11|exact El11|split; reflexivity|lia|lia]. }
  assert (F13 : frame s s13 (0%nat :: fpl ++ fpr)).
  { eapply frame_step with (b := s11) (f2 := [low; up]).
    - eapply frame_step with (b := s10) (f2 := 0%nat :: fpr).
      + apply (frame_weaken _ _ _ _ F10). intros i [<-|Hi]; [left; reflexivity|right; apply in_or_app; left; exact Hi].
      + exact F11.
      + intros i [<-|Hi]; left; [left; reflexivity|right; apply in_or_app; right; exact Hi].
    - intros i l Ei Ni. left. rewrite X13. cbn. rewrite replace_diff by (intros <-; apply Ni; right; left; reflexivity).
      rewrite X12. cbn. rewrite replace_diff by (intros <-; apply Ni; left; reflexivity). exact Ei.
    - intros i [<-|[<-|[]]]; [destruct Ilow as [X|X]; [left; right; apply in_or_app; left; exact X|right; exact X]|right; exact Iup]. }
  assert (Len13 : (length (heap s) <= length (heap s13))%nat).
  { rewrite X13. cbn. rewrite length_replace, X12. cbn. rewrite length_replace. lia. }
  assert (T13 : trans s m s13 m11).
  { eapply trans_trans; [exact T10|]. eapply trans_trans; [exact T11|]. apply trans_refl. rewrite X13, X12. reflexivity. }
  destruct is_mod; unbind E u11 s16 E17; apply ret_inv in E; destruct E as (-> & ->).
  - destruct (free_spec _ _ _ _ _ _ _ _ _ A13 E17) as (Fr & A16 & F16 & T16). rewrite Hxy in A16.
    exists m11, [up]. split; [exact A16|]. split; [eapply trans_trans; [exact T13|exact T16]|].
    split; [eapply frame_step with (b := s13) (f2 := [low]); [exact F13|exact F16|]; intros i [<-|[]]; destruct Ilow as [X|X]; [left; right; apply in_or_app; left; exact X|right; exact X]|].
    split; [intros i l [<-|[]] Ei; rewrite (f_heap _ _ _ _ _ Fr) in Ei by (intros [X|[]]; congruence); assert (l = lu) by congruence; subst l; auto|].
    split; [intros i [<-|[]]; right; exact Iup|]. rewrite (f_len _ _ _ _ _ Fr). exact Len13.
  - apply sim_swap in A13. destruct (free_spec _ _ _ _ _ _ _ _ _ A13 E17) as (Fr & A16 & F16 & T16). rewrite Hxy in A16.
    exists m11, [low]. split; [exact A16|]. split; [eapply trans_trans; [exact T13|exact T16]|].
    split; [eapply frame_step with (b := s13) (f2 := [up]); [exact F13|exact F16|]; intros i [<-|[]]; right; exact Iup|].
    split; [intros i l [<-|[]] Ei; rewrite (f_heap _ _ _ _ _ Fr) in Ei by (intros [X|[]]; congruence); assert (l = ll) by congruence; subst l; auto|].
    split; [intros i [<-|[]]; destruct Ilow as [X|X]; [left; apply in_or_app; left; exact X|right; exact X]|]. rewrite (f_len _ _ _ _ _ Fr). exact Len13.
Qed.
End Ops.
