(** The code generator run on the intermediate code of an expression does what that code means. *)
From Coq Require Import Permutation.
From Verif Require Import IntTypes SelectModel Base X64Decode X64Machine EncModel EncSpec EncProofs EncProps EmitModel StepProofs ExecProofs EmitBasics EmitSim EmitOps.
From Verif Require IntProofs JumpSpec JumpProofs LowerModel.

Section Expr.
Variables (ss TL : Z) (regs0 : Z -> Z).
Let bpv := regs0 5.
Hypothesis H_ss : 0 <= ss.
Hypothesis H_TL : 0 <= TL.
Hypothesis H_off : ss + TL <= 2 ^ 31.
Hypothesis H_bp : ss + TL <= bpv < 2 ^ 64.

Local Notation wf := (wf ss TL regs0).
Local Notation holds := (holds ss regs0).
Local Notation sim := (sim ss TL regs0).
Local Notation frame := (frame ss).
Local Notation spills := (spills ss TL regs0).
Local Notation loads := (loads ss TL regs0).
Local Notation yields := (yields ss TL regs0).
Local Notation val := (val regs0).
Local Notation good := (good ss TL regs0).
Local Notation outside := (outside ss TL regs0).
Local Notation loaded := (loaded regs0).
Local Notation readable := (readable ss TL regs0).
Local Notation peek := (peek regs0).
Local Notation load_ok := (load_ok ss TL regs0).
Local Notation reloaded := (reloaded regs0).
Local Notation load_ok_emit := (load_ok_emit ss TL regs0 H_ss H_TL H_off H_bp).
Local Notation load_specific_spec := (load_specific_spec ss TL regs0 H_ss H_TL H_off H_bp).
Local Notation rr_spec := (rr_spec ss TL regs0 H_ss H_TL H_bp).
Local Notation peek_val := (peek_val ss TL regs0 H_bp).
Local Notation take_spec := (take_spec ss TL regs0 H_ss H_off H_bp).
Local Notation binary_spec := (binary_spec ss TL regs0 H_ss H_TL H_off H_bp).
Local Notation free_spec := (free_spec ss TL regs0 H_ss H_bp).
Local Notation sim_set := (sim_set ss TL regs0 H_ss H_bp).
Local Notation sim_code := (sim_code ss TL regs0 H_ss H_bp).
Local Notation loads_reg := (loads_reg ss TL regs0 H_ss H_TL H_bp).
Local Notation sim_write_head := (sim_write_head ss TL regs0 H_ss H_bp).
Local Notation specific_spec := (specific_spec ss TL regs0 H_ss H_off H_bp).
Local Notation allocate_spec := (allocate_spec ss TL regs0 H_ss H_off H_bp).
Local Notation loaded_spec := (loaded_spec ss TL regs0 H_ss H_bp).
Local Notation holds_loaded := (holds_loaded ss TL regs0 H_ss H_TL H_bp).
Local Notation sim_same := (sim_same ss TL regs0 H_ss H_bp).
Local Notation sim_locks := (sim_locks ss TL regs0 H_ss H_bp).
Local Notation sim_new := (sim_new ss TL regs0 H_ss H_bp).
Local Notation sim_keep := (sim_keep ss TL regs0 H_ss H_bp).
Local Notation sim_write := (sim_write ss TL regs0 H_ss H_bp).
Local Notation sim_write_any := (sim_write_any ss TL regs0 H_ss H_bp).
Local Notation emitted_rel := (emitted_rel ss TL regs0 H_bp).
Local Notation legal0 := (legal0 regs0).
Local Notation legal1 := (legal1 regs0).
Local Notation sim_head := (sim_head ss TL regs0).
Local Notation sim_wf := (sim_wf ss TL regs0).
Local Notation sim_drop := (sim_drop ss TL regs0).
Local Notation sim_ids := (sim_ids ss TL regs0).
Local Notation sim_cons := (sim_cons ss TL regs0).
Local Notation sim_swap := (sim_swap ss TL regs0).
Local Notation sim_perm := (sim_perm ss TL regs0).
Local Notation sim_disjoint := (sim_disjoint ss TL regs0).
Local Notation sim_fresh := (sim_fresh ss TL regs0).
Local Notation holds_nonzero := (holds_nonzero ss TL regs0).
Local Notation wf_map := (wf_map ss TL regs0).
Local Notation wf_ps := (wf_ps ss TL regs0).
Local Notation wf_bp := (wf_bp ss TL regs0).
Local Notation wf_regs := (wf_regs ss TL regs0).
Local Notation wf_word := (wf_word ss TL regs0).
Local Notation wf_tsa := (wf_tsa ss TL regs0).
Local Notation wf_mem := (wf_mem ss TL regs0).
Local Notation ids_exist := (ids_exist ss TL regs0).
Local Notation spills_clear := (spills_clear ss TL regs0).
Local Notation sp_trans := (sp_trans ss TL regs0).
Local Notation sp_sim := (sp_sim ss TL regs0).
Local Notation sp_frame := (sp_frame ss TL regs0).
Local Notation sp_fl := (sp_fl ss TL regs0).
Local Notation sp_regs := (sp_regs ss TL regs0).
Local Notation sp_map := (sp_map ss TL regs0).
Local Notation sp_len := (sp_len ss TL regs0).
Local Notation f_code := (f_code ss TL regs0).
Local Notation f_tsa := (f_tsa ss TL regs0).
Local Notation f_len := (f_len ss TL regs0).
Local Notation f_heap := (f_heap ss TL regs0).
Local Notation f_map := (f_map ss TL regs0).
Local Notation f_wf := (f_wf ss TL regs0).
Local Notation f_clear := (f_clear ss TL regs0).
Local Notation outside_load := (outside_load ss TL regs0).
Local Notation sim_base := (sim_base ss TL regs0).
Local Notation wf_write := (wf_write ss TL regs0).
Local Notation pinned_ready := (pinned_ready ss TL regs0).
Local Notation holds_id := (holds_id ss regs0).
Local Notation holds_ids := (holds_ids ss regs0).
Local Notation HReg := (HReg ss regs0).
Local Notation HSlot := (HSlot ss regs0).
Local Notation HIm := (HIm ss regs0).
Local Notation HLv := (HLv ss regs0).
Local Notation HSl := (HSl ss regs0).
Local Notation holds_relative := (holds_relative ss regs0).
Local Notation holds_write := (holds_write ss regs0).
Local Notation loc_ok := (loc_ok ss regs0).
Local Notation slots_kept := (slots_kept ss regs0).
Local Notation frame_trans := (frame_trans ss).
Local Notation frame_weaken := (frame_weaken ss).
Local Notation frame_clear := (frame_clear ss).
Local Notation frame_lock := (frame_lock ss).
Local Notation frame_locked := (frame_locked ss).
Local Notation frame_new := (frame_new ss).
Local Notation frame_unloaded := (frame_unloaded ss).
Local Notation lock_inv := (lock_inv ss).
Local Notation frame_refl := (frame_refl ss).
Local Notation mod_le := (mod_le regs0).
Local Notation unlock_lock := (unlock_lock regs0).
Local Notation legal_bin := (legal_bin regs0).
Local Notation loaded_no_bp := (loaded_no_bp regs0).
Local Notation I_xor_self := (I_xor_self regs0).
Local Notation wrote_narrow := (wrote_narrow regs0).
Local Notation base_register := (base_register ss TL regs0 H_bp).
#[local] Hint Resolve quiet_loaded quiet_conditional quiet_relative quiet_stack_relative quiet_immediate quiet_spill quiet_specific quiet_allocate
  quiet_free quiet_prevent_freeing quiet_allow_freeing quiet_unlock quiet_allow_spilling quiet_loaded_register quiet_emit_op quiet_ext_op
  quiet_register_register quiet_register_relative_with quiet_load quiet_load_specific quiet_prevent_spilling quiet_rr quiet_ri quiet_load_address quiet_store quiet_binary_op
  quiet_dmm quiet_shift quiet_compare_to_zero quiet_integer_cast quiet_load_bitfield quiet_load_into quiet_load_fuel : quiet.

Ltac later E Q := match type of E with ?c ?s1 = Done (_, ?s2) =>
  let q := fresh in assert (q : quiet c) by quiet_auto; pose proof (q_tsa _ _ (q _ _ _ E)) as Q; clear q end.

Local Notation yreg := (yreg ss TL regs0).
Local Notation yreg_yields := (yreg_yields ss TL regs0).
Local Notation yreg_facts := (yreg_facts ss TL regs0 H_ss H_TL H_bp).
Local Notation load_spec := (load_spec ss TL regs0 H_ss H_TL H_off H_bp).
Local Notation not_spec := (not_spec ss TL regs0 H_ss H_TL H_off H_bp).
Local Notation resize_spec := (resize_spec ss TL regs0 H_ss H_bp).
Local Notation resize_frame := (resize_frame ss).
Local Notation mod_mod_le := (mod_mod_le regs0).
Local Notation truncate_spec := (truncate_spec ss TL regs0 H_ss H_TL H_bp).
Local Notation cast_im_spec := (cast_im_spec ss TL regs0 H_ss H_off H_bp).
Local Notation converts_val := (converts_val ss TL regs0 H_ss H_TL H_off H_bp).
Local Notation zx32_spec := (zx32_spec ss TL regs0 H_ss H_TL H_off H_bp).
Local Notation cond_load := (cond_load ss TL regs0 H_ss H_off H_bp).
Local Notation conds := (conds ss TL regs0).
Local Notation yields_trans := (yields_trans ss TL regs0).
Local Notation conds_load := (conds_load ss TL regs0 H_ss H_off H_bp).
Local Notation conds_unmapped := (conds_unmapped ss TL regs0).
Local Notation conds_negate := (conds_negate ss TL regs0 H_ss H_bp).
Local Notation range_of_size := (range_of_size ss TL regs0 H_ss H_TL H_bp).
Local Notation compare_spec := (compare_spec ss TL regs0 H_ss H_TL H_off H_bp).
Local Notation compare_zero_spec := (compare_zero_spec ss TL regs0 H_ss H_TL H_bp).
Local Notation to_bool_spec := (to_bool_spec ss TL regs0 H_ss H_TL H_off H_bp).
Local Notation frame_step := (frame_step ss regs0).
Local Notation holds_size := (holds_size ss regs0).
Local Notation shift_spec := (shift_spec ss TL regs0 H_ss H_TL H_off H_bp).
Local Notation dmm_spec := (dmm_spec ss TL regs0 H_ss H_TL H_off H_bp).

(** ** The two stacks *)
Variables (vb off : nat -> Z) (mv : LowerModel.memory) (M0 : Z -> Z).
(** The variables are outside the temporaries and hold what the abstract memory says. *)
Hypothesis H_vars : forall x, is_size_P (vb x / 8) /\ vb x = 8 * (vb x / 8) /\ outside (bpv + - off x) (vb x / 8) /\
  load (Z.to_nat (vb x / 8)) M0 (wrapu 64 (bpv + - off x)) = mv x.

Definition matches (c : LowerModel.operand) (o : op) : Prop :=
  good M0 o /\ o <> Bp /\ is_size_P (osize o) /\ LowerModel.operand_bits vb c = 8 * osize o /\ val M0 o = LowerModel.contents mv c /\
  match c with LowerModel.Immediate _ w => o = Im (osize o) (wraps 64 w) | _ => not_im o end /\
  match o with Lv b d n => b = Bp /\ exists x, d = - off x /\ n <= vb x / 8 | _ => True end.

Definition ids (L : list item) : list nat := map (fun x => snd (fst x)) L.
Definition ops (L : list item) : list op := map (fun x => fst (fst x)) L.
Definition all_clear (s : emitter) (L : list item) : Prop := Forall (fun x => clear s (snd x)) L.

(** The emitter's stack holds the operands [Ls]. *)
Definition inv (s : emitter) (m : machine) (Ls : list LowerModel.operand) (stk : list nat) : Prop :=
  exists L, sim s m M0 L /\ all_clear s L /\ stk = ids L /\ Forall2 matches Ls (ops L).

(** The same with a condition on top that is not loaded yet. *)
Definition cinv (s : emitter) (m : machine) (Ls : list LowerModel.operand) (stk : list nat) : Prop :=
  exists L s0 m0 fp c k a b id Ls', conds s0 m0 s m M0 L fp c k a b id /\ all_clear s L /\ stk = id :: ids L /\
    Ls = LowerModel.Value 32 (truth (JumpSpec.holds c k a b)) :: Ls' /\ Forall2 matches Ls' (ops L).

Lemma match_value : forall n k v, is_size_P k -> n = 8 * k -> matches (LowerModel.Value n v) (Rv k v).
Proof. intros n k v Hk Hn. split; [exact I|]. split; [discriminate|]. split; [exact Hk|]. split; [exact Hn|]. split; [reflexivity|]. split; [intros x w; discriminate|exact I]. Qed.

Lemma all_ids : forall s m L i, sim s m M0 L -> In i (concat (map snd L)) -> i <> 0%nat /\ exists l, nth_error (heap s) i = Some l.
Proof.
  intros s m L i H Hi. destruct H as [W Hf _]. induction Hf as [|x L Hx Hf IH]; [destruct Hi|].
  cbn in Hi. apply in_app_or in Hi. destruct Hi as [Hi|Hi]; [|exact (IH Hi)].
  split; [intros ->; eapply holds_nonzero; [exact W|exact Hx|exact Hi]|eapply holds_ids; [exact Hx|exact Hi]].
Qed.

Lemma clear_kept : forall s m s' fp L0 L, sim s m M0 (L0 ++ L) -> all_clear s L -> frame s s' (0%nat :: fp) ->
  incl fp (concat (map snd L0)) -> all_clear s' L.
Proof.
  intros s m s' fp L0 L H C F I. unfold all_clear in *. rewrite Forall_forall in *. intros x Hx.
  assert (Hc : forall i, In i (snd x) -> In i (concat (map snd L))) by (intros i Hi; apply in_concat; exists (snd x); split; [apply List.in_map; exact Hx|exact Hi]).
  assert (Ha : forall i, In i (snd x) -> In i (concat (map snd (L0 ++ L)))).
  { intros i Hi. rewrite map_app, concat_app. apply in_or_app. right. apply Hc. exact Hi. }
  eapply frame_clear; [exact F|exact (C x Hx)| |].
  - intros i Hi [<-|Hf]; [destruct (all_ids _ _ _ _ H (Ha _ Hi)) as (X & _); congruence|].
    destruct H as [_ _ Nd]. rewrite map_app, concat_app in Nd. apply NoDup_app_elim in Nd. destruct Nd as (_ & _ & Dj).
    apply (Dj i); [apply I; exact Hf|apply Hc; exact Hi].
  - intros i Hi. exact (proj2 (all_ids _ _ _ _ H (Ha _ Hi))).
Qed.

Lemma inv_result : forall s m s' m' L0 L fp o id c Ls, sim s m M0 (L0 ++ L) -> all_clear s L -> incl fp (concat (map snd L0)) ->
  yields s m s' m' M0 L fp o id -> matches c o -> Forall2 matches Ls (ops L) -> trans s m s' m' /\ inv s' m' (c :: Ls) (id :: ids L).
Proof.
  intros s m s' m' L0 L fp o id c Ls H C I (fp' & A & T & F & C' & _ & _) Hm Hf. split; [exact T|].
  exists ((o, id, fp') :: L). split; [exact A|]. split; [constructor; [exact C'|eapply clear_kept; eassumption]|].
  split; [reflexivity|]. constructor; assumption.
Qed.

Lemma cinv_result : forall s m s' m' L0 L fp c k a b id Ls, sim s m M0 (L0 ++ L) -> all_clear s L -> incl fp (concat (map snd L0)) ->
  conds s m s' m' M0 L fp c k a b id -> Forall2 matches Ls (ops L) ->
  trans s m s' m' /\ cinv s' m' (LowerModel.Value 32 (truth (JumpSpec.holds c k a b)) :: Ls) (id :: ids L).
Proof.
  intros s m s' m' L0 L fp c k a b id Ls H C I D Hf. pose proof D as (A & T & F & _). split; [exact T|].
  exists L, s, m, fp, c, k, a, b, id, Ls. split; [exact D|]. split; [eapply clear_kept; eassumption|]. auto.
Qed.

Lemma inv_cons : forall s m c Ls stk, inv s m (c :: Ls) stk -> exists o id fp L, sim s m M0 ((o, id, fp) :: L) /\ clear s fp /\ all_clear s L /\
  stk = id :: ids L /\ matches c o /\ Forall2 matches Ls (ops L).
Proof.
  intros s m c Ls stk ([|[[o id] fp] L] & A & C & -> & F); inversion F; subst. inversion C; subst. exists o, id, fp, L. repeat (split; [assumption || reflexivity|]). assumption.
Qed.

Lemma inv_cons2 : forall s m b a Ls stk, inv s m (b :: a :: Ls) stk -> exists or rhs fpr ol lhs fpl L,
  sim s m M0 ((or, rhs, fpr) :: (ol, lhs, fpl) :: L) /\ clear s fpr /\ clear s fpl /\ all_clear s L /\
  stk = rhs :: lhs :: ids L /\ matches b or /\ matches a ol /\ Forall2 matches Ls (ops L).
Proof.
  intros s m b a Ls stk H. apply inv_cons in H. destruct H as (o & id & fp & L & A & C & CL & -> & M & F).
  destruct L as [|[[o2 id2] fp2] L]; inversion F; subst. inversion CL; subst.
  exists o, id, fp, o2, id2, fp2, L. repeat (split; [assumption || reflexivity|]). assumption.
Qed.

(** ** Instructions with one operand and with two *)
Lemma operand_step : forall lhs f a a' Ls s m stk stk' s',
  (forall s m L o id fp id' s', sim s m M0 ((o, id, fp) :: L) -> clear s fp -> matches a o -> f id s = Done (id', s') -> tsa s' <= TL ->
     exists m' o', yields s m s' m' M0 L fp o' id' /\ matches a' o') ->
  (match lhs, Ls with false, x :: _ => x = a | true, _ :: x :: _ => x = a | _, _ => False end) ->
  inv s m Ls stk -> on_operand lhs f stk s = Done (stk', s') -> tsa s' <= TL ->
  exists m', trans s m s' m' /\ inv s' m' (match lhs, Ls with false, _ :: r => a' :: r | true, z :: _ :: r => z :: a' :: r | _, _ => [] end) stk'.
Proof.
  intros lhs f a a' Ls s m stk stk' s' Hf HL HI E HT. destruct lhs.
  - destruct Ls as [|z [|x Ls]]; [contradiction| contradiction|]. subst x. apply inv_cons2 in HI.
    destruct HI as (or & rhs & fpr & ol & lh & fpl & L & A & Cr & Cl & C & -> & Mr & Ml & F). cbn in E.
    unbind E y s1 E1. apply ret_inv in E. destruct E as (-> & Es). subst s1.
    apply sim_swap in A. destruct (Hf _ _ _ _ _ _ _ _ A Cl Ml E1 HT) as (m' & o' & Y & Mo).
    destruct (inv_result s m s' m' [(ol, lh, fpl)] ((or, rhs, fpr) :: L) fpl o' y a' (z :: Ls) A ltac:(constructor; assumption)
      ltac:(cbn; rewrite app_nil_r; apply incl_refl) Y Mo ltac:(constructor; assumption)) as (T & HI).
    exists m'. split; [exact T|]. apply inv_cons2 in HI. destruct HI as (o1 & i1 & f1 & o2 & i2 & f2 & L2 & A2 & C1 & C2 & C3 & Eq & M1 & M2 & F2).
    injection Eq as -> -> Eq. exists ((o2, i2, f2) :: (o1, i1, f1) :: L2). split; [apply sim_swap; exact A2|].
    split; [constructor; [exact C2|constructor; assumption]|]. split; [cbn; rewrite Eq; reflexivity|]. constructor; [exact M2|constructor; assumption].
  - destruct Ls as [|x Ls]; [contradiction|]. subst x. apply inv_cons in HI.
    destruct HI as (o & id & fp & L & A & C & CL & -> & Mo & F). cbn in E. unbind E y s1 E1. apply ret_inv in E. destruct E as (-> & Es). subst s1.
    destruct (Hf _ _ _ _ _ _ _ _ A C Mo E1 HT) as (m' & o' & Y & Mo'). exists m'.
    exact (inv_result s m s' m' [(o, id, fp)] L fp o' y a' Ls A CL ltac:(cbn; rewrite app_nil_r; apply incl_refl) Y Mo' F).
Qed.

Lemma binary_step : forall f a b c Ls s m stk stk' s',
  (forall s m L ol lhs fpl or rhs fpr id' s', sim s m M0 ((ol, lhs, fpl) :: (or, rhs, fpr) :: L) -> clear s fpl -> clear s fpr ->
     matches a ol -> matches b or -> f lhs rhs s = Done (id', s') -> tsa s' <= TL ->
     exists m' o', yields s m s' m' M0 L (fpl ++ fpr) o' id' /\ matches c o') ->
  inv s m (b :: a :: Ls) stk -> binary f stk s = Done (stk', s') -> tsa s' <= TL ->
  exists m', trans s m s' m' /\ inv s' m' (c :: Ls) stk'.
Proof.
  intros f a b c Ls s m stk stk' s' Hf HI E HT. apply inv_cons2 in HI.
  destruct HI as (or & rhs & fpr & ol & lh & fpl & L & A & Cr & Cl & C & -> & Mr & Ml & F). cbn in E.
  unbind E y s1 E1. apply ret_inv in E. destruct E as (-> & Es). subst s1. apply sim_swap in A.
  destruct (Hf _ _ _ _ _ _ _ _ _ _ _ A Cl Cr Ml Mr E1 HT) as (m' & o' & Y & Mo). exists m'.
  exact (inv_result s m s' m' [(ol, lh, fpl); (or, rhs, fpr)] L (fpl ++ fpr) o' y c Ls A C ltac:(cbn; rewrite app_nil_r; apply incl_refl) Y Mo F).
Qed.

(** ** Conversions *)
Lemma matches_range : forall s m L o id fp c, sim s m M0 ((o, id, fp) :: L) -> matches c o -> 0 <= LowerModel.contents mv c < 2 ^ LowerModel.operand_bits vb c.
Proof.
  intros s m L o id fp c H (G & _ & P & B & V & _). rewrite <- V, B. eapply range_of_size; [eapply sim_wf, H|eapply sim_head, H|exact G|exact P].
Qed.

Lemma widening_inv : forall A from to (i j : A), widening from to i = Some j -> i = j /\
  ((from = 8 /\ (to = 16 \/ to = 32 \/ to = 64)) \/ (from = 16 /\ (to = 32 \/ to = 64)) \/ (from = 32 /\ to = 64)).
Proof.
  intros A from to i j H. unfold widening in H. destruct (existsb _ _) eqn:X; [|discriminate]. split; [congruence|].
  cbn in X. repeat rewrite Bool.orb_true_iff in X. repeat rewrite Bool.andb_true_iff in X. repeat rewrite Z.eqb_eq in X. lia.
Qed.

Lemma wraps64_low : forall w n, 0 < n <= 64 -> wraps 64 w mod 2 ^ n = w mod 2 ^ n.
Proof. intros w n Hn. apply IntProofs.wraps_mod_pow. exact Hn. Qed.

Lemma cast_step : forall c lhs i a a', select off vb (LowerModel.Cast lhs c) = Some i -> LowerModel.cast_word vb c mv a = LowerModel.Next a' ->
  exists f, (forall next stk, emit_ir ss i next stk = on_operand lhs f stk) /\
  forall s m L o id fp id' s', sim s m M0 ((o, id, fp) :: L) -> clear s fp -> matches a o -> f id s = Done (id', s') -> tsa s' <= TL ->
    exists m' o', yields s m s' m' M0 L fp o' id' /\ matches a' o'.
Proof.
  intros c lhs i a a' Hs Hc. destruct c as [from to|from to|n|]; cbn in Hs.
  - (* sign extension *)
    apply widening_inv in Hs. destruct Hs as (<- & Hft). eexists. split; [reflexivity|].
    intros s m L o id fp id' s' H C Ma E HT. pose proof Ma as (G & Nb & P & B & V & K & Fl). cbv beta in E.
    assert (Hto : is_size_P (to / 8) /\ to = 8 * (to / 8)).
    { destruct Hft as [(_ & [->|[->| ->]])|[(_ & [->| ->])|(_ & ->)]]; unfold is_size_P; vm_compute (_ / _); lia. }
    destruct Hto as (Pt & Et).
    assert (Hf1 : from / 8 = 1 \/ from / 8 = 2 \/ (from / 8 = 4 /\ true = true)) by (destruct Hft as [(-> & _)|[(-> & _)|(-> & _)]]; vm_compute (_ / _); auto).
    assert (Hf2 : from / 8 < to / 8) by (destruct Hft as [(-> & [->|[->| ->]])|[(-> & [->| ->])|(-> & ->)]]; reflexivity).
    destruct a as [n v|n v|x]; cbn in Hc.
    2: { inversion Hc; subst a'. rewrite K in H. destruct (cast_im_spec _ _ _ _ _ _ _ _ _ _ _ _ Pt H C E HT) as (m' & r & Y & _).
         exists m'. eexists. split; [eapply yreg_yields; exact Y|]. rewrite <- Et. rewrite wraps64_low by lia. apply match_value; [exact Pt|exact Et]. }
    all: unfold LowerModel.fetch in Hc; destruct (_ =? from) eqn:X in Hc; [|discriminate]; apply Z.eqb_eq in X; cbn in Hc; inversion Hc; subst a'.
    all: rewrite B in X; assert (Z1 : osize o = from / 8) by (rewrite <- X; rewrite Z.mul_comm, Z.div_mul by lia; reflexivity).
    all: destruct (converts_val true (from / 8) (to / 8) _ _ _ _ _ _ _ _ _ Hf1 Pt Hf2 H C G Nb K Z1 E HT) as (m' & Y).
    all: exists m'; eexists; split; [exact Y|].
    all: rewrite <- Et; unfold extended; rewrite <- Z1, X, V; apply match_value; [exact Pt|exact Et].
  - (* zero extension *)
    apply widening_inv in Hs. destruct Hs as (<- & Hft). eexists. split; [reflexivity|].
    intros s m L o id fp id' s' H C Ma E HT. pose proof Ma as (G & Nb & P & B & V & K & Fl). cbv beta in E.
    assert (Hto : is_size_P (to / 8) /\ to = 8 * (to / 8)).
    { destruct Hft as [(_ & [->|[->| ->]])|[(_ & [->| ->])|(_ & ->)]]; unfold is_size_P; vm_compute (_ / _); lia. }
    destruct Hto as (Pt & Et). pose proof (matches_range _ _ _ _ _ _ _ H Ma) as Rg.
    assert (H4 : (from / 8 =? 4) = (from =? 32)).
    { destruct Hft as [(-> & _)|[(-> & _)|(-> & _)]]; reflexivity. }
    rewrite H4 in E. destruct (from =? 32) eqn:F32.
    + apply Z.eqb_eq in F32. assert (to = 64) by lia. subst from to.
      destruct a as [n v|n v|x]; cbn in Hc.
      2: { inversion Hc; subst a'. destruct (zx32_spec _ _ _ _ _ _ _ _ _ H C G Nb ltac:(right; rewrite K; intro Q; exact (Q _ _ eq_refl)) E HT) as (_ & Y).
           destruct (Y _ _ K) as (m' & Y'). exists m'. eexists. split; [exact Y'|]. rewrite wraps64_low by lia.
           apply match_value; [exact Pt|exact Et]. }
      all: unfold LowerModel.fetch in Hc; destruct (_ =? 32) eqn:X in Hc; [|discriminate]; apply Z.eqb_eq in X; cbn in Hc; inversion Hc; subst a'.
      all: rewrite B in X; destruct (zx32_spec _ _ _ _ _ _ _ _ _ H C G Nb ltac:(left; lia) E HT) as (Y & _); destruct (Y K) as (m' & Y').
      all: exists m'; eexists; split; [exact Y'|]; cbn [LowerModel.operand_bits LowerModel.contents] in *.
      all: rewrite V; unfold wrapu; rewrite B, X in Rg; rewrite !Z.mod_small by (pose proof (Z.pow_lt_mono_r 2 32 64 ltac:(lia) ltac:(lia) ltac:(lia)); lia); apply match_value; [exact Pt|exact Et].
    + apply Z.eqb_neq in F32.
      assert (Hf1 : from / 8 = 1 \/ from / 8 = 2 \/ (from / 8 = 4 /\ false = true)) by (destruct Hft as [(-> & _)|[(-> & _)|(-> & _)]]; [left; reflexivity|right; left; reflexivity|lia]).
      assert (Hf2 : from / 8 < to / 8) by (destruct Hft as [(-> & [->|[->| ->]])|[(-> & [->| ->])|(-> & ->)]]; reflexivity).
      destruct a as [n v|n v|x]; cbn in Hc.
      2: { apply Z.eqb_neq in F32; rewrite F32 in Hc. inversion Hc; subst a'. rewrite K in H. destruct (cast_im_spec _ _ _ _ _ _ _ _ _ _ _ _ Pt H C E HT) as (m' & r & Y & _).
         exists m'. eexists. split; [eapply yreg_yields; exact Y|]. rewrite <- Et. rewrite wraps64_low by lia. apply match_value; [exact Pt|exact Et]. }
      all: unfold LowerModel.fetch in Hc; destruct (_ =? from) eqn:X in Hc; [|discriminate]; apply Z.eqb_eq in X; cbn in Hc; inversion Hc; subst a'.
      all: rewrite B in X; assert (Z1 : osize o = from / 8) by (rewrite <- X; rewrite Z.mul_comm, Z.div_mul by lia; reflexivity).
      all: destruct (converts_val false (from / 8) (to / 8) _ _ _ _ _ _ _ _ _ Hf1 Pt Hf2 H C G Nb K Z1 E HT) as (m' & Y).
      all: exists m'; eexists; split; [exact Y|].
      all: rewrite <- Et; unfold extended; rewrite V; apply match_value; [exact Pt|exact Et].
  - (* truncation *)
    destruct ((n =? 8) || _) eqn:X in Hs; [|discriminate]. inversion Hs; subst i. eexists. split; [reflexivity|].
    intros s m L o id fp id' s' H C Ma E HT. pose proof Ma as (G & Nb & P & B & V & K & Fl). cbv beta in E.
    repeat rewrite Bool.orb_true_iff in X. repeat rewrite Z.eqb_eq in X.
    assert (Hto : is_size_P (n / 8) /\ n = 8 * (n / 8)).
    { destruct X as [->|[->|[->|X]]]; [| | |discriminate]; unfold is_size_P; vm_compute (_ / _); lia. }
    destruct Hto as (Pt & Et).
    destruct a as [k v|k v|x]; cbn in Hc.
    2: { inversion Hc; subst a'. exists m, (Im (n / 8) (wraps 64 v)). split.
         - unbind E u s1 E1. apply ret_inv in E. destruct E as (-> & Es). subst s1.
           destruct (resize_spec _ _ _ _ _ _ _ _ _ _ H Nb Pt E1) as (o' & l & A & R & Zo & El & ->).
           assert (o' = Im (n / 8) (wraps 64 v) /\ fp = [id]).
           { destruct R as [(r & n1 & v1 & _ & _ & _ & Q & _)|[(n1 & w & Q & Q' & Q2)|[(k1 & v1 & [Q|(n1 & Q)] & _)|(b1 & off1 & n1 & Q & _)]]]; rewrite K in Q; try discriminate.
             inversion Q; subst. auto. }
           destruct H0 as (-> & ->). exists [id]. split; [exact A|]. split; [apply trans_refl; reflexivity|].
           split; [apply resize_frame; [exact El|right; left; reflexivity]|]. split; [apply resize_clear; assumption|].
           split; [intros j [<-|[]]; left; left; reflexivity|]. cbn. rewrite length_replace. lia.
         - split; [exact I|]. split; [discriminate|]. split; [exact Pt|]. cbn [osize LowerModel.operand_bits val LowerModel.contents].
           split; [exact Et|]. split; [rewrite <- Et; apply wraps64_low; lia|]. split; [reflexivity|exact I]. }
    all: destruct (n <=? _) eqn:X1 in Hc; [|discriminate]; apply Z.leb_le in X1; inversion Hc; subst a'.
    all: cbn [LowerModel.operand_bits LowerModel.contents] in *.
    all: destruct (truncate_spec _ _ _ _ _ _ _ _ _ _ H C G Nb Pt ltac:(lia) P E) as (o' & Y & G' & Nb' & Z' & V' & K' & _ & Fl').
    all: exists m, o'; split; [exact Y|]; split; [exact G'|]; split; [exact Nb'|]; rewrite Z'; split; [exact Pt|].
    all: cbn [LowerModel.operand_bits LowerModel.contents]; split; [exact Et|]; split; [rewrite V', V, <- Et; reflexivity|]; split; [exact (K' K)|]; destruct o'; try exact I; destruct (Fl' _ _ _ eq_refl) as (? & ->); destruct Fl as (Fl1 & y & Fl2 & Fl3); split; [exact Fl1|]; exists y; split; [exact Fl2|]; cbn [osize] in *; lia.
  - (* to bool *)
    inversion Hs; subst i. eexists. split; [reflexivity|].
    intros s m L o id fp id' s' H C Ma E HT. pose proof Ma as (G & Nb & P & B & V & K & Fl). cbv beta in E.
    destruct (to_bool_spec _ _ _ _ _ _ _ _ _ H C G Nb E HT) as (m' & Y). exists m'. eexists. split; [exact Y|].
    rewrite V. assert (a' = LowerModel.Value 8 (truth (negb (LowerModel.contents mv a =? 0)))) as ->.
    { destruct a; cbn in Hc |- *; inversion Hc; destruct (_ =? 0); reflexivity. }
    apply match_value; [unfold is_size_P; lia|reflexivity].
Qed.

(** ** Arithmetic *)
Lemma fetch_match : forall s m L id fp c o n x, sim s m M0 ((o, id, fp) :: L) -> matches c o -> LowerModel.fetch vb mv n c = LowerModel.Next x ->
  8 * osize o = n /\ val M0 o = x /\ 0 <= x < 2 ^ n.
Proof.
  intros s m L id fp c o n x H Ma Hf. pose proof (matches_range _ _ _ _ _ _ _ H Ma) as R. destruct Ma as (_ & _ & _ & B & V & _).
  unfold LowerModel.fetch in Hf. destruct (_ =? n) eqn:X in Hf; [|discriminate]. apply Z.eqb_eq in X. inversion Hf; subst x. rewrite X in R. split; [congruence|]. split; [exact V|exact R].
Qed.

Lemma unary_step : forall (neg : bool) n a x, (n = 32 \/ n = 64) -> LowerModel.fetch vb mv n a = LowerModel.Next x ->
  forall s m L o id fp id' s', sim s m M0 ((o, id, fp) :: L) -> clear s fp -> matches a o ->
    (id <- emit_load_gpr ss id ;; emit_reg_extended_op no_prefix (one_byte_opcode 0xF7) (if neg then 3 else 2) id ;;; ret id) s = Done (id', s') -> tsa s' <= TL ->
    exists m' o', yields s m s' m' M0 L fp o' id' /\ matches (LowerModel.Value n (wrapu n (if neg then - x else Z.lnot x))) o'.
Proof.
  intros neg n a x Hn Hf s m L o id fp id' s' H C Ma E HT. destruct (fetch_match _ _ _ _ _ _ _ _ _ H Ma Hf) as (Z1 & V & _).
  pose proof Ma as (G & Nb & P & _). destruct (not_spec neg _ _ _ _ _ _ _ _ _ (osize o) H C G Nb eq_refl ltac:(lia) E HT) as (m' & Y).
  exists m'. eexists. split; [exact Y|]. rewrite V, Z1. apply match_value; [exact P|lia].
Qed.

Lemma alu_step : forall k n a b x y w f, k = 0 \/ k = 1 \/ k = 4 \/ k = 5 \/ k = 6 -> (n = 32 \/ n = 64) ->
  LowerModel.fetch vb mv n a = LowerModel.Next x -> LowerModel.fetch vb mv n b = LowerModel.Next y ->
  alu k n x y = Some (Some w, f) ->
  forall s m L ol lhs fpl or rhs fpr id' s', sim s m M0 ((ol, lhs, fpl) :: (or, rhs, fpr) :: L) -> clear s fpl -> clear s fpr ->
    matches a ol -> matches b or ->
    (l <- get lhs ;; emit_binary_op ss no_prefix lhs rhs (l_size l) false k (8 * k + 2) (8 * k + 3)) s = Done (id', s') -> tsa s' <= TL ->
    exists m' o', yields s m s' m' M0 L (fpl ++ fpr) o' id' /\ matches (LowerModel.Value n (w mod 2 ^ n)) o'.
Proof.
  intros k n a b x y w f Hk Hn Hx Hy Hw s m L ol lhs fpl or rhs fpr id' s' H Cl Cr Ma Mb E HT.
  destruct (fetch_match _ _ _ _ _ _ _ _ _ H Ma Hx) as (Z1 & V1 & _).
  destruct (fetch_match _ _ _ _ _ _ _ _ _ (sim_swap _ _ _ _ _ _ H) Mb Hy) as (Z2 & V2 & _).
  unbind E l s1 E1. apply get_inv' in E1. destruct E1 as (El & Es). subst s1.
  pose proof Ma as (G1 & N1 & P1 & _). pose proof Mb as (G2 & N2 & P2 & _).
  rewrite (holds_size _ _ _ _ _ _ (sim_head _ _ _ _ _ _ _ H) N1 El) in E.
  destruct (binary_spec k (osize ol) x lhs rhs fpl fpr ol or s id' s' m M0 L (Some w) f ltac:(lia) H Cl Cr G1 G2 N1 N2 eq_refl ltac:(lia) V1
    ltac:(rewrite Z1, V2; exact Hw) E HT) as (m' & Y & _).
  exists m'. eexists. split; [exact Y|]. cbn [after]. rewrite Z1. apply match_value; [exact P1|lia].
Qed.

Lemma shift_step : forall (left : bool) t a b x, (bits t = 32 \/ bits t = 64) -> LowerModel.fetch vb mv (bits t) a = LowerModel.Next x ->
  forall s m L ol lhs fpl or rhs fpr id' s', sim s m M0 ((ol, lhs, fpl) :: (or, rhs, fpr) :: L) -> clear s fpl -> clear s fpr ->
    matches a ol -> matches b or ->
    emit_shift ss lhs rhs (if left then (if type_is_signed t then 6 else 4) else (if type_is_signed t then 7 else 5)) s = Done (id', s') -> tsa s' <= TL ->
    exists m' o', yields s m s' m' M0 L (fpl ++ fpr) o' id' /\
      matches (LowerModel.Value (bits t) (LowerModel.shift left t x (LowerModel.contents mv b))) o'.
Proof.
  intros left t a b x Hn Hx s m L ol lhs fpl or rhs fpr id' s' H Cl Cr Ma Mb E HT.
  destruct (fetch_match _ _ _ _ _ _ _ _ _ H Ma Hx) as (Z1 & V1 & R1). apply sim_swap in H.
  pose proof Ma as (G1 & N1 & P1 & _). pose proof Mb as (G2 & N2 & P2 & _ & V2 & _).
  assert (X : X64Machine.shift (if left then (if type_is_signed t then 6 else 4) else (if type_is_signed t then 7 else 5))
     (8 * osize ol) (val M0 ol) (shift_count (osize ol) (val M0 or mod 256)) =
     Some (if left then (x * 2 ^ FieldModel.amount (bits t) (wrapu 8 (LowerModel.contents mv b))) mod 2 ^ bits t
           else if type_is_signed t then (wraps (bits t) x / 2 ^ FieldModel.amount (bits t) (wrapu 8 (LowerModel.contents mv b))) mod 2 ^ bits t
           else x / 2 ^ FieldModel.amount (bits t) (wrapu 8 (LowerModel.contents mv b)))).
  { assert (Hk : shift_count (osize ol) (val M0 or mod 256) = FieldModel.amount (bits t) (wrapu 8 (LowerModel.contents mv b))).
    { unfold shift_count, FieldModel.amount, wrapu. rewrite V2. change (2 ^ 8) with 256. f_equal.
      destruct Hn as [Q|Q]; rewrite Q in *; [replace (osize ol) with 4 by lia|replace (osize ol) with 8 by lia]; reflexivity. }
    rewrite Hk, V1, Z1. unfold X64Machine.shift. destruct left, (type_is_signed t); reflexivity. }
  destruct (shift_spec (if left then (if type_is_signed t then 6 else 4) else (if type_is_signed t then 7 else 5)) s m M0 L ol lhs fpl or rhs fpr (osize ol) _ id' s' ltac:(lia) ltac:(destruct left, (type_is_signed t); lia) H Cl Cr G1 G2 N1 N2 eq_refl P2 X E HT) as (m' & Y).
  exists m'. eexists. split; [exact Y|]. rewrite Z1. unfold LowerModel.shift, LowerModel.number.
  set (k := FieldModel.amount _ _).
  assert (Hk : 0 <= k) by (unfold k, FieldModel.amount; destruct (_ =? _); apply Z.mod_pos_bound; lia).
  assert (P2n : 0 < 2 ^ bits t) by (apply Z.pow_pos_nonneg; lia).
  match goal with |- matches (LowerModel.Value _ ?u) (Rv _ ?w) => replace w with u end; [apply match_value; [exact P1|lia]|].
  unfold wrapu. destruct left; [rewrite Z.mod_mod by lia; reflexivity|]. destruct (type_is_signed t); [rewrite Z.mod_mod by lia; reflexivity|].
  rewrite (Z.mod_small x) by exact R1. reflexivity.
Qed.

(** ** Multiplication and division *)
Lemma number_cong : forall t a b, 0 < bits t -> a mod 2 ^ bits t = b mod 2 ^ bits t -> LowerModel.number t a = LowerModel.number t b.
Proof.
  intros t a b Hb H. unfold LowerModel.number, wrapu. destruct (type_is_signed t); [|exact H].
  apply wraps_mod. exact H.
Qed.

Lemma dmm_step : forall (kind : bool * bool) (* divide, remainder *) t a b x y w, (bits t = 32 \/ bits t = 64) ->
  LowerModel.fetch vb mv (bits t) a = LowerModel.Next x -> LowerModel.fetch vb mv (bits t) b = LowerModel.Next y ->
  (if fst kind then LowerModel.divide (snd kind) t x y
   else LowerModel.Next (wrapu (bits t) (LowerModel.number t x * LowerModel.number t y))) = LowerModel.Next w -> (fst kind = false -> snd kind = false) ->
  forall s m L ol lhs fpl or rhs fpr id' s', sim s m M0 ((ol, lhs, fpl) :: (or, rhs, fpr) :: L) -> clear s fpl -> clear s fpr ->
    matches a ol -> matches b or ->
    (l <- get lhs ;; emit_dmm ss lhs rhs (l_size l) (if fst kind then 7 else 5) (if fst kind then 6 else 4) (type_is_signed t) (snd kind)) s = Done (id', s') ->
    tsa s' <= TL ->
    exists m' o', yields s m s' m' M0 L (fpl ++ fpr) o' id' /\ matches (LowerModel.Value (bits t) w) o'.
Proof.
  intros [dv md] t a b x y w Hn Hx Hy Hw Hk s m L ol lhs fpl or rhs fpr id' s' H Cl Cr Ma Mb E HT. cbn [fst snd] in *.
  destruct (fetch_match _ _ _ _ _ _ _ _ _ H Ma Hx) as (Z1 & V1 & R1).
  destruct (fetch_match _ _ _ _ _ _ _ _ _ (sim_swap _ _ _ _ _ _ H) Mb Hy) as (Z2 & V2 & R2).
  unbind E l s1 E1. apply get_inv' in E1. destruct E1 as (El & Es). subst s1.
  pose proof Ma as (G1 & N1 & P1 & _). pose proof Mb as (G2 & N2 & P2 & _).
  rewrite (holds_size _ _ _ _ _ _ (sim_head _ _ _ _ _ _ _ H) N1 El) in E.
  assert (S48 : osize ol = 4 \/ osize ol = 8) by lia.
  assert (P2n : 0 < 2 ^ bits t) by (apply Z.pow_pos_nonneg; lia).
  assert (D : divides (if type_is_signed t then (if dv then 7 else 5) else (if dv then 6 else 4)) (osize ol) x
     ((if type_is_signed t then (if wraps (8 * osize ol) x <? 0 then -1 else 0) else 0) mod 2 ^ (8 * osize ol)) y md w).
  { split; [destruct (type_is_signed t), dv; lia|]. intros bs base hi rm m1 He Hrm Ha Hd Hb. rewrite Z1 in *.
    destruct dv.
    - unfold LowerModel.divide in Hw. cbv zeta in Hw. destruct (_ =? 0) eqn:Q0 in Hw; [discriminate|]. apply Z.eqb_neq in Q0.
      destruct (type_is_signed t) eqn:Sg.
      + cbn [andb] in Hw. destruct (_ && _) eqn:Q1 in Hw; [discriminate|]. injection Hw as <-.
        assert (Wa : wraps (8 * osize ol) (regs m1 RAX) = LowerModel.number t x).
        { unfold LowerModel.number. rewrite Sg, Z1. apply wraps_mod. rewrite Ha. symmetry. apply Z.mod_small. exact R1. }
        assert (Wb : wraps (8 * osize ol) (rmval m1 (osize ol) rm) = LowerModel.number t y).
        { unfold LowerModel.number. rewrite Sg, Z1, Hb. reflexivity. }
        destruct (I_idiv bs base hi (osize ol) rm m1 He S48 Hrm) as (m' & Hr & Hp).
        * rewrite Wa, Z1, Hd. unfold LowerModel.number. rewrite Sg. reflexivity.
        * rewrite Wb. exact Q0.
        * rewrite Wa, Wb, Z1. intros (A1 & A2). rewrite A1, A2, !Z.eqb_refl in Q1. discriminate.
        * rewrite Wa, Wb in Hp. exists m', (Z.quot (LowerModel.number t x) (LowerModel.number t y)), (Z.rem (LowerModel.number t x) (LowerModel.number t y)).
          split; [exact Hr|]. split; [exact Hp|]. destruct md; reflexivity.
      + cbn [andb] in Hw. injection Hw as <-. unfold LowerModel.number in *. rewrite Sg in *. unfold wrapu in Q0 |- *.
        rewrite (Z.mod_small x), (Z.mod_small y) in * by assumption.
        destruct (I_div bs base hi (osize ol) rm m1 He S48 Hrm) as (m' & Hr & Hp).
        * rewrite Z1, Hd. apply Z.mod_0_l. lia.
        * rewrite Hb. exact Q0.
        * rewrite Z1, Ha, Hb in Hp. exists m', (x / y), (x mod y). split; [exact Hr|]. split; [exact Hp|].
          rewrite Z.rem_mod_nonneg, Z.quot_div_nonneg by lia. destruct md; reflexivity.
    - rewrite (Hk eq_refl) in *. injection Hw as <-.
      destruct (I_mul bs (type_is_signed t) base hi (osize ol) rm m1) as (m' & h & Hr & Hp); [destruct (type_is_signed t); exact He|exact S48|exact Hrm|].
      exists m', (regs m1 RAX * rmval m1 (osize ol) rm), h. split; [exact Hr|]. split; [exact Hp|]. cbv iota. rewrite Hb. unfold wrapu.
      assert (Cx : LowerModel.number t x mod 2 ^ bits t = regs m1 RAX mod 2 ^ bits t).
      { rewrite Ha. unfold LowerModel.number. destruct (type_is_signed t); [rewrite IntProofs.wraps_mod_pow by lia|unfold wrapu; rewrite Z.mod_mod by lia]; apply Z.mod_small; exact R1. }
      assert (Cy : LowerModel.number t y mod 2 ^ bits t = y mod 2 ^ bits t).
      { unfold LowerModel.number. destruct (type_is_signed t); [rewrite IntProofs.wraps_mod_pow by lia|unfold wrapu; rewrite Z.mod_mod by lia]; reflexivity. }
      rewrite Zmult_mod, <- Cx, <- Cy, <- Zmult_mod. reflexivity. }
  destruct (dmm_spec (type_is_signed t) md (if dv then 7 else 5) (if dv then 6 else 4) (osize ol) x y w s m M0 L ol lhs fpl or rhs fpr id' s' S48 H Cl Cr G1 G2 N1 N2 eq_refl ltac:(lia) V1 V2 D E HT) as (m' & Y).
  exists m'. eexists. split; [exact Y|]. apply match_value; [exact P1|lia].
Qed.

(** ** Conditions *)
Definition stays (next : option ir) (s : emitter) (m : machine) (Ls : list LowerModel.operand) (stk : list nat) : Prop :=
  inv s m Ls stk \/ (keeps_condition next = true /\ cinv s m Ls stk).

(** A condition is loaded or kept. *)
Lemma finish_condition : forall s m s1 m1 L0 L fp c k a b id Ls next id' s', sim s m M0 (L0 ++ L) -> all_clear s L -> incl fp (concat (map snd L0)) ->
  conds s m s1 m1 M0 L fp c k a b id -> Forall2 matches Ls (ops L) ->
  (if keeps_condition next then ret id else emit_load_gpr ss id) s1 = Done (id', s') -> tsa s' <= TL ->
  exists m', trans s m s' m' /\ stays next s' m' (LowerModel.Value 32 (truth (JumpSpec.holds c k a b)) :: Ls) (id' :: ids L).
Proof.
  intros s m s1 m1 L0 L fp c k a b id Ls next id' s' H C I D Hf E HT. unfold stays. destruct (keeps_condition next) eqn:K.
  - apply ret_inv in E. destruct E as (-> & ->). destruct (cinv_result _ _ _ _ _ _ _ _ _ _ _ _ _ H C I D Hf) as (T & X).
    exists m1. split; [exact T|]. right. split; [reflexivity|exact X].
  - destruct (conds_load _ _ _ _ _ _ _ _ _ _ _ _ _ _ D E HT) as (m' & Y). exists m'.
    destruct (inv_result s m s' m' L0 L fp _ id' (LowerModel.Value 32 (truth (JumpSpec.holds c k a b))) Ls H C I Y) as (T & X);
      [apply match_value; [unfold is_size_P; lia|reflexivity]|exact Hf|]. split; [exact T|left; exact X].
Qed.

Lemma compare_step : forall c n next a b x y Ls s m stk stk' s', (n = 32 \/ n = 64) ->
  LowerModel.fetch vb mv n a = LowerModel.Next x -> LowerModel.fetch vb mv n b = LowerModel.Next y ->
  inv s m (b :: a :: Ls) stk -> emit_ir ss (IR_compare c (n / 8)) next stk s = Done (stk', s') -> tsa s' <= TL ->
  exists m', trans s m s' m' /\ stays next s' m' (LowerModel.Value 32 (truth (JumpSpec.holds c n x y)) :: Ls) stk'.
Proof.
  intros c n next a b x y Ls s m stk stk' s' Hn Hx Hy HI E HT. apply inv_cons2 in HI.
  destruct HI as (or & rhs & fpr & ol & lhs & fpl & L & A & Cr & Cl & C & -> & Mr & Ml & F). cbn [emit_ir binary] in E.
  unbind E id' s9 E9. apply ret_inv in E. destruct E as (-> & Es). subst s9.
  unbind E9 r s1 E1. unbind E9 u s2 E2. unbind E9 cd s3 E3. later E9 Q.
  assert (E123 : (result <- emit_binary_op ss no_prefix lhs rhs (n / 8) false 7 0x3A 0x3B ;; free_emit_location result ;;; emit_location_conditional c) s = Done (cd, s3)).
  { unfold bind, obind. rewrite E1. cbv beta iota. rewrite E2. exact E3. }
  apply sim_swap in A.
  destruct (fetch_match _ _ _ _ _ _ _ _ _ A Ml Hx) as (Z1 & V1 & _).
  destruct (fetch_match _ _ _ _ _ _ _ _ _ (sim_swap _ _ _ _ _ _ A) Mr Hy) as (Z2 & V2 & _).
  pose proof Ml as (G1 & N1 & P1 & _). pose proof Mr as (G2 & N2 & P2 & _).
  assert (Zn : n / 8 = osize ol) by (rewrite <- Z1, Z.mul_comm; apply Z.div_mul; lia). rewrite Zn in E123.
  destruct (compare_spec c (osize ol) lhs rhs fpl fpr ol or s cd s3 m M0 L A Cl Cr G1 G2 N1 N2 eq_refl ltac:(lia) P1 E123 ltac:(lia)) as (m1 & D).
  rewrite V1, V2, Z1 in D.
  refine (finish_condition s m s3 m1 [(ol, lhs, fpl); (or, rhs, fpr)] L (fpl ++ fpr) c n x y cd Ls next id' s' A C _ D F E9 HT).
  cbn. rewrite app_nil_r. apply incl_refl.
Qed.

Lemma holds_state : forall s m o id fp l, wf s m M0 -> holds s m o id fp -> nth_error (heap s) id = Some l -> forall c, l_state l <> Conditional c.
Proof.
  intros s m o id fp l W H E c. destruct H; try congruence. destruct (wf_bp _ _ _ W) as (k & Ek & Sk & _). congruence.
Qed.

Lemma truth_zero : forall b, (truth b =? 0) = negb b.
Proof. intros []; reflexivity. Qed.

Lemma not_step : forall n next a x Ls s m stk stk' s', (n = 32 \/ n = 64) -> LowerModel.fetch vb mv n a = LowerModel.Next x ->
  inv s m (a :: Ls) stk -> emit_ir ss IR_logical_not next stk s = Done (stk', s') -> tsa s' <= TL ->
  exists m', trans s m s' m' /\ stays next s' m' (LowerModel.truth (x =? 0) :: Ls) stk'.
Proof.
  intros n next a x Ls s m stk stk' s' Hn Hx HI E HT. apply inv_cons in HI.
  destruct HI as (o & id & fp & L & A & Co & C & -> & Mo & F). cbn [emit_ir on_operand] in E.
  unbind E id' s9 E9. apply ret_inv in E. destruct E as (-> & Es). subst s9.
  unbind E9 l s1 E1. apply get_inv' in E1. destruct E1 as (El & Es). subst s1.
  destruct (fetch_match _ _ _ _ _ _ _ _ _ A Mo Hx) as (Z1 & V1 & _).
  pose proof Mo as (G1 & N1 & P1 & _).
  unbind E9 id1 s1 E1.
  assert (E1' : (id <- emit_load_gpr ss id ;; emit_compare_to_zero id) s = Done (id1, s1)).
  { destruct (l_state l) eqn:Sl; try exact E1. exfalso. exact (holds_state _ _ _ _ _ _ (sim_wf _ _ _ _ A) (sim_head _ _ _ _ _ _ _ A) El _ Sl). }
  clear E1. unbind E1' id0 s0 E0. unbind E9 l1 s2 E2. apply get_inv' in E2. destruct E2 as (El1 & Es). subst s2.
  assert (Q1 : tsa s0 <= tsa s1) by (exact (q_tsa _ _ (quiet_compare_to_zero _ _ _ _ E1'))).
  destruct (l_state l1) eqn:S1; try discriminate.
  unbind E9 c' s2 E2. apply lift_inv' in E2. destruct E2 as (Hneg & Es). subst s2.
  unbind E9 u s3 E3. later E9 Q3. apply set_inv in E3. subst s3. cbn [tsa in_heap] in Q3.
  destruct (load_spec _ _ _ _ _ _ _ _ _ A Co G1 N1 E0 ltac:(lia)) as (m0 & r & Y).
  destruct (compare_zero_spec _ _ _ _ _ _ _ _ _ _ _ _ _ Y E1' ltac:(lia)) as (m1 & D).
  pose proof D as (_ & _ & _ & Hl & _). assert (l1 = mkloc (Conditional COMP_unequals) 4 0 0) by congruence. subst l1.
  cbn in S1. injection S1 as <-. apply (conds_negate _ _ _ _ _ _ _ _ c') in D.
  rewrite V1, Z1 in D.
  destruct (finish_condition _ _ _ _ [(o, id, fp)] L fp c' n x 0 id1 Ls next id' s' A C ltac:(cbn; rewrite app_nil_r; apply incl_refl) D F E9 HT) as (m' & T & X).
  exists m'. split; [exact T|]. rewrite (JumpProofs.negate_holds _ _ _ _ _ Hneg) in X. cbn [JumpSpec.holds] in X. rewrite Bool.negb_involutive in X.
  exact X.
Qed.

Lemma not_cond_step : forall n next h Ls s m stk stk' s', LowerModel.fetch vb mv n (LowerModel.Value 32 h) = LowerModel.Next h ->
  cinv s m (LowerModel.Value 32 h :: Ls) stk -> emit_ir ss IR_logical_not next stk s = Done (stk', s') -> tsa s' <= TL ->
  exists m', trans s m s' m' /\ stays next s' m' (LowerModel.truth (h =? 0) :: Ls) stk'.
Proof.
  intros n next h Ls s m stk stk' s' Hx (L & s0 & m0 & fp & c & k & a & b & id & Ls1 & D & C & -> & HL & F) E HT.
  injection HL as -> <-. cbn [emit_ir on_operand] in E.
  unbind E id' s9 E9. apply ret_inv in E. destruct E as (-> & Es). subst s9.
  pose proof D as (A & _ & _ & Hl & _).
  unbind E9 l s1 E1. apply get_inv' in E1. destruct E1 as (El & Es). subst s1.
  assert (l = mkloc (Conditional c) 4 0 0) by congruence. subst l. cbn [l_state] in E9.
  unbind E9 id1 s1 E1. apply ret_inv in E1. destruct E1 as (-> & Es). subst s1.
  unbind E9 l s1 E1. apply get_inv' in E1. destruct E1 as (El1 & Es). subst s1.
  assert (l = mkloc (Conditional c) 4 0 0) by congruence. subst l. cbn [l_state] in E9.
  unbind E9 c' s2 E2. apply lift_inv' in E2. destruct E2 as (Hneg & Es). subst s2.
  unbind E9 u s3 E3. later E9 Q3. apply set_inv in E3. change (with_state (Conditional c') (mkloc (Conditional c) 4 0 0)) with (mkloc (Conditional c') 4 0 0) in E3.
  pose proof (conds_unmapped _ _ _ _ _ _ _ _ _ _ _ _ D) as (Ni & _ & _).
  apply (conds_negate _ _ _ _ _ _ _ _ c') in D. rewrite <- E3 in D. clear El El1.
  assert (T3 : trans s m s3 m) by (apply trans_refl; rewrite E3; reflexivity).
  assert (C3 : all_clear s3 L).
  { unfold all_clear in *. rewrite Forall_forall in *. intros it Hit i l Hi Hl1. rewrite E3 in Hl1. cbn in Hl1.
    rewrite replace_diff in Hl1; [exact (C it Hit i l Hi Hl1)|]. intros <-. apply Ni. apply in_concat. exists (snd it). split; [apply List.in_map; exact Hit|exact Hi]. }
  assert (Ht : truth (JumpSpec.holds c' k a b) = (if truth (JumpSpec.holds c k a b) =? 0 then 1 else 0)).
  { rewrite (JumpProofs.negate_holds _ _ _ _ _ Hneg). destruct (JumpSpec.holds c k a b); reflexivity. }
  unfold LowerModel.truth. rewrite <- Ht. unfold stays. destruct (keeps_condition next) eqn:Kc.
  - apply ret_inv in E9. destruct E9 as (-> & ->). exists m. split; [exact T3|]. right. split; [reflexivity|].
    exists L, s0, m0, fp, c', k, a, b, id, Ls. auto.
  - destruct D as (A3 & _ & _ & Hl3 & _ & _ & f & Hfl & Hcmp).
    destruct (cond_load _ _ _ _ _ _ _ _ _ _ _ _ _ A3 Hl3 Hfl Hcmp E9 HT) as (m' & Y). exists m'.
    destruct (inv_result s3 m s' m' [] L [] _ id' (LowerModel.Value 32 (truth (JumpSpec.holds c' k a b))) Ls A3 C3 ltac:(intros ? []) Y) as (T & X);
      [apply match_value; [unfold is_size_P; lia|reflexivity]|exact F|].
    split; [eapply trans_trans with (b := s3) (mb := m); assumption|left; exact X].
Qed.

(** ** The other instructions *)
Lemma push_new : forall s m L Ls l o id s' c, sim s m M0 L -> all_clear s L -> Forall2 matches Ls (ops L) -> new l s = Done (id, s') ->
  l_prevent_spilling l = 0 -> l_prevent_freeing l = 0 -> matches c o -> holds s' m o (length (heap s)) [length (heap s)] ->
  trans s m s' m /\ inv s' m (c :: Ls) (id :: ids L).
Proof.
  intros s m L Ls l o id s' c H C F E Hp Hq Mo Ho. unfold new in E. injection E as <- Es.
  assert (Old : forall i k, nth_error (heap s) i = Some k -> nth_error (heap s') i = Some k) by (intros i k Hi; rewrite <- Es; apply nth_error_old; exact Hi).
  split; [apply trans_refl; rewrite <- Es; reflexivity|]. exists ((o, length (heap s), [length (heap s)]) :: L).
  split; [apply sim_cons; [rewrite <- Es; apply sim_new; [exact H|lia|lia]|exact Ho|constructor; [intros []|constructor]|]|].
  - intros i [<-|[]] Hi. destruct (all_ids _ _ _ _ H Hi) as (_ & k & Hk). apply nth_error_lt in Hk. lia.
  - split; [|split; [reflexivity|constructor; assumption]]. constructor.
    + intros i k [<-|[]] Hk. rewrite <- Es in Hk. cbn in Hk. rewrite nth_error_app2, Nat.sub_diag in Hk by lia. injection Hk as <-. auto.
    + refine (clear_kept s m s' [] [] L H C _ ltac:(intros ? [])). intros i k Hi _. left. apply Old. exact Hi.
Qed.

Lemma push_local : forall s m Ls stk x stk' s', inv s m Ls stk ->
  emit_ir ss (IR_local (off x) (vb x / 8)) None stk s = Done (stk', s') -> trans s m s' m /\ inv s' m (LowerModel.Location x :: Ls) stk'.
Proof.
  intros s m Ls stk x stk' s' (L & A & C & -> & F) E. cbn [emit_ir] in E. unbind E id1 s1 E1. apply ret_inv in E. destruct E as (-> & Es). subst s1.
  destruct (H_vars x) as (P & B & O & V).
  unfold emit_location_stack_relative, emit_location_register_relative, register_bp in E1.
  refine (push_new s m L Ls _ (Lv Bp (- off x) (vb x / 8)) id1 s' (LowerModel.Location x) A C F E1 eq_refl eq_refl _ _).
  - split; [split; [exact I|split; [reflexivity|exact O]]|]. split; [discriminate|]. split; [exact P|]. cbn [osize LowerModel.operand_bits LowerModel.contents].
    split; [exact B|]. split; [exact V|]. split; [intros ? ?; discriminate|]. split; [reflexivity|exists x; split; [reflexivity|lia]].
  - unfold new in E1. injection E1 as _ <-. eapply HLv; [cbn; rewrite nth_error_app2, Nat.sub_diag by lia; reflexivity|reflexivity|reflexivity|apply HBp].
Qed.

Lemma push_literal : forall s m Ls stk v n stk' s', inv s m Ls stk -> is_size_P (n / 8) -> n = 8 * (n / 8) ->
  emit_ir ss (IR_integer_literal v (n / 8)) None stk s = Done (stk', s') -> trans s m s' m /\ inv s' m (LowerModel.Immediate n v :: Ls) stk'.
Proof.
  intros s m Ls stk v n stk' s' (L & A & C & -> & F) P B E. cbn [emit_ir] in E. unbind E id1 s1 E1. apply ret_inv in E. destruct E as (-> & Es). subst s1.
  unfold emit_location_immediate in E1.
  refine (push_new s m L Ls _ (Im (n / 8) (wraps 64 v)) id1 s' (LowerModel.Immediate n v) A C F E1 eq_refl eq_refl _ _).
  - split; [exact I|]. split; [discriminate|]. split; [exact P|]. cbn [osize LowerModel.operand_bits LowerModel.contents val].
    split; [exact B|]. split; [rewrite <- B; apply wraps64_low; unfold is_size_P in P; lia|]. split; [reflexivity|exact I].
  - unfold new in E1. injection E1 as _ <-. eapply HIm; [cbn; rewrite nth_error_app2, Nat.sub_diag by lia; reflexivity|reflexivity|reflexivity|exact P].
Qed.

Lemma pop_step : forall s m c Ls stk stk' s', inv s m (c :: Ls) stk ->
  emit_ir ss IR_pop_expression None stk s = Done (stk', s') -> trans s m s' m /\ inv s' m Ls stk'.
Proof.
  intros s m c Ls stk stk' s' HI E. apply inv_cons in HI. destruct HI as (o & id & fp & L & A & Co & C & -> & Mo & F). cbn [emit_ir] in E.
  unbind E u s1 E1. apply ret_inv in E. destruct E as (-> & Es). subst s1.
  destruct (free_spec _ _ _ _ _ _ _ _ _ A E1) as (_ & A1 & Fr & T). split; [exact T|].
  exists L. split; [exact A1|]. split; [|auto].
  refine (clear_kept s m s' fp [(o, id, fp)] L A C _ ltac:(cbn; rewrite app_nil_r; apply incl_refl)).
  intros i k Hi Hn. apply Fr; [exact Hi|]. intro X. apply Hn. right. exact X.
Qed.

Lemma swap_step : forall s m a b Ls stk stk' s', inv s m (b :: a :: Ls) stk ->
  emit_ir ss IR_swap_lhs_rhs None stk s = Done (stk', s') -> trans s m s' m /\ inv s' m (a :: b :: Ls) stk'.
Proof.
  intros s m a b Ls stk stk' s' HI E. apply inv_cons2 in HI.
  destruct HI as (or & rhs & fpr & ol & lhs & fpl & L & A & Cr & Cl & C & -> & Mr & Ml & F). cbn [emit_ir] in E.
  apply ret_inv in E. destruct E as (-> & Es). subst s'. split; [apply trans_refl; reflexivity|].
  exists ((ol, lhs, fpl) :: (or, rhs, fpr) :: L). split; [apply sim_swap; exact A|]. split; [repeat (constructor; try assumption)|].
  split; [reflexivity|]. repeat (constructor; try assumption).
Qed.

(** ** One instruction, and a sequence of them *)
Ltac word_size H := unfold for_word in H; let X := fresh "X" in
  destruct ((_ =? 32) || _) eqn:X in H; [|discriminate]; apply Bool.orb_true_iff in X; rewrite !Z.eqb_eq in X.

Lemma size_of_type : forall t, is_size_P (bits t / 8) /\ bits t = 8 * (bits t / 8).
Proof. intros []; split; vm_compute; tauto. Qed.

Lemma logic_mod : forall n a b, 0 <= n -> 0 <= a < 2 ^ n -> 0 <= b < 2 ^ n ->
  Z.land a b mod 2 ^ n = Z.land a b /\ Z.lor a b mod 2 ^ n = Z.lor a b /\ Z.lxor a b mod 2 ^ n = Z.lxor a b.
Proof.
  intros n a b Hn Ha Hb.
  assert (A : Z.land a (Z.ones n) = a) by (rewrite Z.land_ones by exact Hn; apply Z.mod_small; exact Ha).
  assert (B : Z.land b (Z.ones n) = b) by (rewrite Z.land_ones by exact Hn; apply Z.mod_small; exact Hb).
  rewrite <- !Z.land_ones by exact Hn. split; [|split].
  - rewrite <- Z.land_assoc, B. reflexivity.
  - rewrite Z.land_lor_distr_l, A, B. reflexivity.
  - apply Z.bits_inj'. intros i Hi. rewrite Z.land_spec, !Z.lxor_spec.
    assert (At : Z.testbit a i && Z.testbit (Z.ones n) i = Z.testbit a i) by (rewrite <- Z.land_spec, A; reflexivity).
    assert (Bt : Z.testbit b i && Z.testbit (Z.ones n) i = Z.testbit b i) by (rewrite <- Z.land_spec, B; reflexivity).
    destruct (Z.testbit a i), (Z.testbit b i), (Z.testbit (Z.ones n) i); cbn in *; congruence.
Qed.

Lemma binary_inv : forall n f Ls Ls' mv', LowerModel.binary vb n f Ls mv = LowerModel.Next (Ls', mv') ->
  exists b a r x y c, Ls = b :: a :: r /\ LowerModel.fetch vb mv n a = LowerModel.Next x /\ LowerModel.fetch vb mv n b = LowerModel.Next y /\
    f x y = LowerModel.Next c /\ Ls' = c :: r /\ mv' = mv.
Proof.
  intros n f [|b [|a r]] Ls' mv' H; try discriminate. cbn in H.
  destruct (LowerModel.fetch vb mv n a) as [x| |] eqn:A in H; try discriminate. cbn in H.
  destruct (LowerModel.fetch vb mv n b) as [y| |] eqn:B in H; try discriminate. cbn in H.
  destruct (f x y) as [c| |] eqn:Fc in H; try discriminate. cbn in H. injection H as <- <-. exists b, a, r, x, y, c. auto 10.
Qed.

Lemma fetch_range : forall s m L id fp c o n x, sim s m M0 ((o, id, fp) :: L) -> matches c o -> LowerModel.fetch vb mv n c = LowerModel.Next x -> 0 <= x < 2 ^ n.
Proof. intros. eapply fetch_match; eassumption. Qed.

Definition goes (next : option ir) (s : emitter) (m : machine) (s' : emitter) (Ls' : list LowerModel.operand) (stk' : list nat) : Prop :=
  exists m', trans s m s' m' /\ stays next s' m' Ls' stk'.

Lemma alu_goes : forall k n F f next Ls Ls' mv' s m stk stk' s', k = 0 \/ k = 1 \/ k = 4 \/ k = 5 \/ k = 6 -> (n = 32 \/ n = 64) ->
  (forall x y, 0 <= x < 2 ^ n -> 0 <= y < 2 ^ n -> exists w fl, alu k n x y = Some (Some w, fl) /\ w mod 2 ^ n = F x y) ->
  f = (fun lhs rhs => l <- get lhs ;; emit_binary_op ss no_prefix lhs rhs (l_size l) false k (8 * k + 2) (8 * k + 3)) ->
  LowerModel.binary vb n (fun x y => LowerModel.Next (LowerModel.Value n (F x y))) Ls mv = LowerModel.Next (Ls', mv') ->
  inv s m Ls stk -> binary f stk s = Done (stk', s') -> tsa s' <= TL -> mv' = mv /\ goes next s m s' Ls' stk'.
Proof.
  intros k n F f next Ls Ls' mv' s m stk stk' s' Hk Hn HF -> Hb HI E HT.
  apply binary_inv in Hb. destruct Hb as (b & a & r & x & y & c & -> & Hx & Hy & Hc & -> & ->). split; [reflexivity|].
  injection Hc as <-.
  assert (R : 0 <= x < 2 ^ n /\ 0 <= y < 2 ^ n).
  { apply inv_cons2 in HI. destruct HI as (or & rhs & fpr & ol & lh & fpl & L & A & _ & _ & _ & _ & Mr & Ml & _).
    split; [eapply fetch_range; [apply sim_swap; exact A|exact Ml|exact Hx]|eapply fetch_range; [exact A|exact Mr|exact Hy]]. }
  destruct (HF x y (proj1 R) (proj2 R)) as (w & fl & Ha & Hw).
  destruct (binary_step _ a b _ r s m stk stk' s' (alu_step k n a b x y w fl Hk Hn Hx Hy Ha) HI E HT) as (m' & T & X).
  exists m'. split; [exact T|]. left. rewrite <- Hw. exact X.
Qed.

Lemma dmm_goes : forall (kind : bool * bool) t G f next Ls Ls' mv' s m stk stk' s', (bits t = 32 \/ bits t = 64) -> (fst kind = false -> snd kind = false) ->
  (forall x y c, G x y = LowerModel.Next c -> exists w, c = LowerModel.Value (bits t) w /\
     (if fst kind then LowerModel.divide (snd kind) t x y else LowerModel.Next (wrapu (bits t) (LowerModel.number t x * LowerModel.number t y))) = LowerModel.Next w) ->
  f = (fun lhs rhs => l <- get lhs ;; emit_dmm ss lhs rhs (l_size l) (if fst kind then 7 else 5) (if fst kind then 6 else 4) (type_is_signed t) (snd kind)) ->
  LowerModel.binary vb (bits t) G Ls mv = LowerModel.Next (Ls', mv') ->
  inv s m Ls stk -> binary f stk s = Done (stk', s') -> tsa s' <= TL -> mv' = mv /\ goes next s m s' Ls' stk'.
Proof.
  intros kind t G f next Ls Ls' mv' s m stk stk' s' Hn Hk HG -> Hb HI E HT.
  apply binary_inv in Hb. destruct Hb as (b & a & r & x & y & c & -> & Hx & Hy & Hc & -> & ->). split; [reflexivity|].
  destruct (HG _ _ _ Hc) as (w & -> & Hw).
  destruct (binary_step _ a b _ r s m stk stk' s' (dmm_step kind t a b x y w Hn Hx Hy Hw Hk) HI E HT) as (m' & T & X).
  exists m'. split; [exact T|]. left. exact X.
Qed.

Lemma compare_goes : forall c n H next Ls Ls' mv' s m stk stk' s', (n = 32 \/ n = 64) ->
  (forall x y, 0 <= x < 2 ^ n -> 0 <= y < 2 ^ n -> H x y = JumpSpec.holds c n x y) ->
  LowerModel.binary vb n (fun x y => LowerModel.Next (LowerModel.truth (H x y))) Ls mv = LowerModel.Next (Ls', mv') ->
  inv s m Ls stk -> emit_ir ss (IR_compare c (n / 8)) next stk s = Done (stk', s') -> tsa s' <= TL -> mv' = mv /\ goes next s m s' Ls' stk'.
Proof.
  intros c n H next Ls Ls' mv' s m stk stk' s' Hn HH Hb HI E HT.
  apply binary_inv in Hb. destruct Hb as (b & a & r & x & y & d & -> & Hx & Hy & Hc & -> & ->). split; [reflexivity|].
  injection Hc as <-.
  assert (R : 0 <= x < 2 ^ n /\ 0 <= y < 2 ^ n).
  { apply inv_cons2 in HI. destruct HI as (or & rhs & fpr & ol & lh & fpl & L & A & _ & _ & _ & _ & Mr & Ml & _).
    split; [eapply fetch_range; [apply sim_swap; exact A|exact Ml|exact Hx]|eapply fetch_range; [exact A|exact Mr|exact Hy]]. }
  rewrite (HH x y (proj1 R) (proj2 R)). exact (compare_step c n next a b x y r s m stk stk' s' Hn Hx Hy HI E HT).
Qed.

Lemma step_sim : forall i j next Ls Ls' mv' s m stk stk' s', select off vb i = Some j -> LowerModel.step vb i Ls mv = LowerModel.Next (Ls', mv') ->
  inv s m Ls stk -> emit_ir ss j next stk s = Done (stk', s') -> tsa s' <= TL -> mv' = mv /\ goes next s m s' Ls' stk'.
Proof.
  intros i j next Ls Ls' mv' s m stk stk' s' Hs Hst HI E HT.
  assert (done : forall Ls'' m', mv' = mv -> Ls'' = Ls' -> trans s m s' m' /\ inv s' m' Ls'' stk' -> mv' = mv /\ goes next s m s' Ls' stk').
  { intros Ls'' m' -> -> (T & X). split; [reflexivity|]. exists m'. split; [exact T|left; exact X]. }
  destruct i; cbn [select] in Hs; try discriminate Hs.
  - (* literal *) injection Hs as <-. cbn in Hst. injection Hst as <- <-. destruct (size_of_type (IntModel.lty l)) as (P & B).
    eapply done; [reflexivity|reflexivity|]. exact (push_literal s m Ls stk (IntModel.integer_literal_as_u64 l) (bits (IntModel.lty l)) stk' s' HI P B E).
  - (* identifier *) injection Hs as <-. cbn in Hst. injection Hst as <- <-.
    eapply done; [reflexivity|reflexivity|]. exact (push_local s m Ls stk x stk' s' HI E).
  - (* cast *)
    destruct lhs; cbn in Hst.
    + destruct Ls as [|z [|a r]]; try discriminate. destruct (LowerModel.cast_word vb c mv a) as [a'| |] eqn:Hc in Hst; try discriminate.
      injection Hst as <- <-. destruct (cast_step c true j a a' Hs Hc) as (f & Ef & Hf). rewrite Ef in E.
      destruct (operand_step true f a a' (z :: a :: r) s m stk stk' s' Hf eq_refl HI E HT) as (m' & T).
      eapply done; [reflexivity|reflexivity|exact T].
    + destruct Ls as [|a r]; try discriminate. destruct (LowerModel.cast_word vb c mv a) as [a'| |] eqn:Hc in Hst; try discriminate.
      injection Hst as <- <-. destruct (cast_step c false j a a' Hs Hc) as (f & Ef & Hf). rewrite Ef in E.
      destruct (operand_step false f a a' (a :: r) s m stk stk' s' Hf eq_refl HI E HT) as (m' & T).
      eapply done; [reflexivity|reflexivity|exact T].
  - (* bitwise not *) word_size Hs. injection Hs as <-. destruct Ls as [|a r]; try discriminate. cbn in Hst.
    destruct (LowerModel.fetch vb mv n a) as [x| |] eqn:Hx in Hst; try discriminate. injection Hst as <- <-. cbn [emit_ir] in E.
    destruct (operand_step false _ a _ (a :: r) s m stk stk' s' (unary_step false n a x X Hx) eq_refl HI E HT) as (m' & T).
    eapply done; [reflexivity|reflexivity|exact T].
  - (* negate *) word_size Hs. injection Hs as <-. destruct Ls as [|a r]; try discriminate. cbn in Hst.
    destruct (LowerModel.fetch vb mv n a) as [x| |] eqn:Hx in Hst; try discriminate. injection Hst as <- <-. cbn [emit_ir] in E.
    destruct (operand_step false _ a _ (a :: r) s m stk stk' s' (unary_step true n a x X Hx) eq_refl HI E HT) as (m' & T).
    eapply done; [reflexivity|reflexivity|exact T].
  - (* logical not *) word_size Hs. injection Hs as <-. destruct Ls as [|a r]; try discriminate. cbn in Hst.
    destruct (LowerModel.fetch vb mv n a) as [x| |] eqn:Hx in Hst; try discriminate. injection Hst as <- <-. split; [reflexivity|].
    exact (not_step n next a x r s m stk stk' s' X Hx HI E HT).
  - (* add *) word_size Hs. injection Hs as <-.
    refine (alu_goes 0 n (fun x y => wrapu n (x + y)) _ next Ls Ls' mv' s m stk stk' s' ltac:(lia) X _ eq_refl Hst HI E HT).
    intros x y _ _. do 2 eexists. split; [reflexivity|]. apply Z.mod_mod. apply Z.pow_nonzero; lia.
  - (* subtract *) word_size Hs. injection Hs as <-.
    refine (alu_goes 5 n (fun x y => wrapu n (x - y)) _ next Ls Ls' mv' s m stk stk' s' ltac:(lia) X _ eq_refl Hst HI E HT).
    intros x y _ _. do 2 eexists. split; [reflexivity|]. apply Z.mod_mod. apply Z.pow_nonzero; lia.
  - (* multiply *) word_size Hs. injection Hs as <-.
    refine (dmm_goes (false, false) t _ _ next Ls Ls' mv' s m stk stk' s' X _ _ eq_refl Hst HI E HT); [reflexivity|].
    intros x y c Hc. injection Hc as <-. eexists. split; reflexivity.
  - (* divide *) word_size Hs. injection Hs as <-.
    refine (dmm_goes (true, false) t _ _ next Ls Ls' mv' s m stk stk' s' X _ _ eq_refl Hst HI E HT); [discriminate|].
    intros x y c Hc. cbn [fst snd] in *. destruct (LowerModel.divide false t x y) as [w| |]; try discriminate. injection Hc as <-. eexists. split; reflexivity.
  - (* modulo *) word_size Hs. injection Hs as <-.
    refine (dmm_goes (true, true) t _ _ next Ls Ls' mv' s m stk stk' s' X _ _ eq_refl Hst HI E HT); [discriminate|].
    intros x y c Hc. cbn [fst snd] in *. destruct (LowerModel.divide true t x y) as [w| |]; try discriminate. injection Hc as <-. eexists. split; reflexivity.
  - (* and *) word_size Hs. injection Hs as <-.
    refine (alu_goes 4 n Z.land _ next Ls Ls' mv' s m stk stk' s' ltac:(lia) X _ eq_refl Hst HI E HT).
    intros x y Rx Ry. do 2 eexists. split; [reflexivity|]. apply (logic_mod n x y ltac:(lia) Rx Ry).
  - (* or *) word_size Hs. injection Hs as <-.
    refine (alu_goes 1 n Z.lor _ next Ls Ls' mv' s m stk stk' s' ltac:(lia) X _ eq_refl Hst HI E HT).
    intros x y Rx Ry. do 2 eexists. split; [reflexivity|]. apply (logic_mod n x y ltac:(lia) Rx Ry).
  - (* xor *) word_size Hs. injection Hs as <-.
    refine (alu_goes 6 n Z.lxor _ next Ls Ls' mv' s m stk stk' s' ltac:(lia) X _ eq_refl Hst HI E HT).
    intros x y Rx Ry. do 2 eexists. split; [reflexivity|]. apply (logic_mod n x y ltac:(lia) Rx Ry).
  - (* left shift *) word_size Hs. injection Hs as <-. destruct Ls as [|b [|a r]]; try discriminate. unfold LowerModel.step, LowerModel.rbind in Hst.
    destruct (LowerModel.fetch vb mv (bits t) a) as [x| |] eqn:Hx in Hst; try discriminate. injection Hst as <- <-. cbn [emit_ir] in E.
    destruct (binary_step _ a b _ r s m stk stk' s' (shift_step true t a b x X Hx) HI E HT) as (m' & T).
    eapply done; [reflexivity|reflexivity|exact T].
  - (* right shift *) word_size Hs. injection Hs as <-. destruct Ls as [|b [|a r]]; try discriminate. unfold LowerModel.step, LowerModel.rbind in Hst.
    destruct (LowerModel.fetch vb mv (bits t) a) as [x| |] eqn:Hx in Hst; try discriminate. injection Hst as <- <-. cbn [emit_ir] in E.
    destruct (binary_step _ a b _ r s m stk stk' s' (shift_step false t a b x X Hx) HI E HT) as (m' & T).
    eapply done; [reflexivity|reflexivity|exact T].
  - unfold comparison in Hs. word_size Hs. injection Hs as <-. eapply (compare_goes _ (bits t) _ next Ls Ls' mv' s m stk stk' s' X _ Hst HI E HT).
    Unshelve. intros x y Rx Ry. unfold LowerModel.number, wrapu. destruct (type_is_signed t); cbn [JumpSpec.holds]; rewrite ?(Z.mod_small x), ?(Z.mod_small y) by assumption; reflexivity.
  - unfold comparison in Hs. word_size Hs. injection Hs as <-. eapply (compare_goes _ (bits t) _ next Ls Ls' mv' s m stk stk' s' X _ Hst HI E HT).
    Unshelve. intros x y Rx Ry. unfold LowerModel.number, wrapu. destruct (type_is_signed t); cbn [JumpSpec.holds]; rewrite ?(Z.mod_small x), ?(Z.mod_small y) by assumption; reflexivity.
  - unfold comparison in Hs. word_size Hs. injection Hs as <-. eapply (compare_goes _ (bits t) _ next Ls Ls' mv' s m stk stk' s' X _ Hst HI E HT).
    Unshelve. intros x y Rx Ry. unfold LowerModel.number, wrapu. destruct (type_is_signed t); cbn [JumpSpec.holds]; rewrite ?(Z.mod_small x), ?(Z.mod_small y) by assumption; reflexivity.
  - unfold comparison in Hs. word_size Hs. injection Hs as <-. eapply (compare_goes _ (bits t) _ next Ls Ls' mv' s m stk stk' s' X _ Hst HI E HT).
    Unshelve. intros x y Rx Ry. unfold LowerModel.number, wrapu. destruct (type_is_signed t); cbn [JumpSpec.holds]; rewrite ?(Z.mod_small x), ?(Z.mod_small y) by assumption; reflexivity.
  - word_size Hs. injection Hs as <-. refine (compare_goes COMP_equals n Z.eqb next Ls Ls' mv' s m stk stk' s' X _ Hst HI E HT). reflexivity.
  - word_size Hs. injection Hs as <-. refine (compare_goes COMP_unequals n (fun x y => negb (x =? y)) next Ls Ls' mv' s m stk stk' s' X _ Hst HI E HT). reflexivity.
  - (* swap *) injection Hs as <-. destruct Ls as [|b [|a r]]; try discriminate. cbn in Hst. injection Hst as <- <-.
    eapply done; [reflexivity|reflexivity|]. exact (swap_step s m a b r stk stk' s' HI E).
  - (* pop *) injection Hs as <-. destruct Ls as [|a r]; try discriminate. cbn in Hst. injection Hst as <- <-.
    eapply done; [reflexivity|reflexivity|]. exact (pop_step s m a r stk stk' s' HI E).
  - (* nop *) injection Hs as <-. cbn in Hst. injection Hst as <- <-. cbn [emit_ir] in E. apply ret_inv in E. destruct E as (-> & ->).
    eapply done; [reflexivity|reflexivity|]. split; [apply trans_refl; reflexivity|exact HI].
Qed.

Lemma select_no_jump : forall i j, select off vb i = Some j -> is_jump j = false /\
  (forall b l, j <> IR_jump_if b l) /\ j <> IR_return /\ (j = IR_logical_not -> exists n, i = LowerModel.Logical_not n).
Proof.
  intros i j H.
  assert (D : forall (X : option ir), X = Some j -> (forall k, X = Some k -> is_jump k = false /\ (forall b l, k <> IR_jump_if b l) /\ k <> IR_return /\ k <> IR_logical_not) ->
     is_jump j = false /\ (forall b l, j <> IR_jump_if b l) /\ j <> IR_return /\ (j = IR_logical_not -> exists n, i = LowerModel.Logical_not n)).
  { intros X HX K. destruct (K j HX) as (A & B & C & E). split; [exact A|]. split; [exact B|]. split; [exact C|]. intros ->. congruence. }
  destruct i; cbn [select] in H; try discriminate H.
  6: { unfold for_word in H. destruct (_ || _); [|discriminate]. injection H as <-. split; [reflexivity|]. split; [discriminate|]. split; [discriminate|]. intros _. eexists. reflexivity. }
  all: eapply D; [exact H|]; clear; intros k H; unfold comparison, for_word, widening in H.
  all: try (destruct c; unfold widening in H); repeat (match type of H with context [if ?b then _ else _] => destruct b; try discriminate H end); injection H as <-; repeat split; discriminate.
Qed.

Lemma code_sim : forall c js Ls Ls' mv' s m stk stk' s', select_all off vb c = Some js -> LowerModel.exec vb c Ls mv = LowerModel.Next (Ls', mv') ->
  inv s m Ls stk \/ (cinv s m Ls stk /\ exists n r, c = LowerModel.Logical_not n :: r) ->
  emit_irs ss (js ++ [IR_return]) None stk s = Done (stk', s') -> tsa s' <= TL ->
  mv' = mv /\ exists s1 m1 stk1, trans s m s1 m1 /\ inv s1 m1 Ls' stk1 /\ jumps s1 = jumps s /\ emit_ir ss IR_return None stk1 s1 = Done (stk', s').
Proof.
  induction c as [|i c IH]; intros js Ls Ls' mv' s m stk stk' s' Hs He HI E HT.
  - cbn in Hs, He. injection Hs as <-. injection He as <- <-. cbn [app emit_irs] in E. unbind E stk1 s1 E1. apply ret_inv in E. destruct E as (-> & ->).
    destruct HI as [HI|(_ & n & r & X)]; [|discriminate]. split; [reflexivity|].
    exists s, m, stk. split; [apply trans_refl; reflexivity|]. split; [exact HI|]. split; [reflexivity|exact E1].
  - cbn [select_all] in Hs. destruct (select off vb i) as [j|] eqn:Hj; [|discriminate]. destruct (select_all off vb c) as [js'|] eqn:Hjs; [|discriminate].
    injection Hs as <-. cbn [LowerModel.exec] in He. unfold LowerModel.rbind in He.
    destruct (LowerModel.step vb i Ls mv) as [[Ls1 mv1]| |] eqn:Hst; try discriminate. cbn [fst snd] in He.
    change ((j :: js') ++ [IR_return]) with (j :: (js' ++ [IR_return])) in E. cbn [emit_irs] in E. unbind E stk1 s1 E1.
    destruct (select_no_jump i j Hj) as (Nj & _ & _ & Nn).
    pose proof (quiet_ir ss _ _ _ Nj _ _ _ E1) as Qi.
    assert (Q : tsa s1 <= tsa s').
    { clear - E Hjs H_ss. revert c js' Hjs E. revert stk1 s1.
      assert (K : forall c js' stk1 s1, select_all off vb c = Some js' -> emit_irs ss (js' ++ [IR_return]) None stk1 s1 = Done (stk', s') -> tsa s1 <= tsa s').
      { induction c as [|i c IH]; intros js' stk1 s1 Hs E; cbn [select_all] in Hs.
        - injection Hs as <-. cbn [app emit_irs] in E. unbind E k s2 E2. apply ret_inv in E. destruct E as (_ & ->).
          exact (q_tsa _ _ (quiet_ir ss IR_return None stk1 eq_refl _ _ _ E2)).
        - destruct (select off vb i) as [j|] eqn:Hj; [|discriminate]. destruct (select_all off vb c) as [js|] eqn:Hjs; [|discriminate].
          injection Hs as <-. change ((j :: js) ++ [IR_return]) with (j :: (js ++ [IR_return])) in E. cbn [emit_irs] in E. unbind E k s2 E2.
          destruct (select_no_jump i j Hj) as (Nj & _). pose proof (q_tsa _ _ (quiet_ir ss _ _ _ Nj _ _ _ E2)). pose proof (IH _ _ _ eq_refl E). lia. }
      intros stk1 s1 c js' Hjs E. exact (K c js' stk1 s1 Hjs E). }
    set (next := match js' ++ [IR_return] with n :: _ => Some n | [] => None end) in *.
    assert (G : mv1 = mv /\ goes next s m s1 Ls1 stk1).
    { destruct HI as [HI|(HC & n & r & Hc)]; [exact (step_sim i j next Ls Ls1 mv1 s m stk stk1 s1 Hj Hst HI E1 ltac:(lia))|].
      injection Hc as -> <-. cbn [select] in Hj. unfold for_word in Hj. destruct (_ || _); [|discriminate]. injection Hj as <-.
      pose proof HC as (L & s0 & m0 & fp & cc & k & a & b & id1 & Lr & _ & _ & _ & HL & _). rewrite HL in Hst, HC. cbn in Hst.
      destruct (LowerModel.fetch vb mv n (LowerModel.Value 32 (truth (JumpSpec.holds cc k a b)))) as [x| |] eqn:Hx in Hst; try discriminate. injection Hst as <- <-.
      assert (x = truth (JumpSpec.holds cc k a b)). { unfold LowerModel.fetch in Hx. destruct (_ =? n) in Hx; [|discriminate]. injection Hx as <-. reflexivity. } subst x.
      split; [reflexivity|]. exact (not_cond_step n next _ Lr s m stk stk1 s1 Hx HC E1 ltac:(lia)). }
    destruct G as (-> & m1 & T1 & St).
    destruct (IH js' Ls1 Ls' mv' s1 m1 stk1 stk' s' eq_refl He) as (-> & s2 & m2 & stk2 & T2 & HI2 & J2 & E2); [|exact E|exact HT|].
    { destruct St as [St|(Kn & St)]; [left; exact St|right]. split; [exact St|].
      destruct c as [|i' c']; cbn [select_all] in Hjs.
      - injection Hjs as <-. cbn in Kn. discriminate.
      - destruct (select off vb i') as [j'|] eqn:Hj'; [|discriminate]. destruct (select_all off vb c'); [|discriminate]. injection Hjs as <-.
        destruct (select_no_jump i' j' Hj') as (_ & N1 & _ & N2). cbn in Kn.
        destruct j'; try discriminate; [|exfalso; eapply N1; reflexivity]. destruct (N2 eq_refl) as (n & ->). exists n, c'. reflexivity. }
    split; [reflexivity|]. exists s2, m2, stk2. split; [eapply trans_trans with (b := s1) (mb := m1); assumption|]. split; [exact HI2|].
    split; [rewrite J2; exact (q_jumps _ _ Qi)|exact E2].
Qed.

(** ** The return statement *)
Lemma return_step : forall s m c stk stk' s', inv s m [c] stk -> emit_ir ss IR_return None stk s = Done (stk', s') -> tsa s' <= TL ->
  exists m', trans s m s' m' /\ sim s' m' M0 [] /\ regs m' RAX mod 2 ^ LowerModel.operand_bits vb c = LowerModel.contents mv c.
Proof.
  intros s m c stk stk' s' HI E HT. apply inv_cons in HI. destruct HI as (o & id & fp & L & A & Co & C & -> & Mo & F).
  destruct L as [|x L]; [|inversion F]. clear C F. cbn [emit_ir ids map] in E. unbind E ld s1 E1. unbind E u s2 E2. apply ret_inv in E. destruct E as (_ & Es). subst s2.
  pose proof (q_tsa _ _ (quiet_free _ _ _ _ E2)) as Q.
  pose proof Mo as (G & Nb & P & B & V & _ & Fl).
  assert (Fp : fp = [id]).
  { pose proof (sim_head _ _ _ _ _ _ _ A) as Hh. inversion Hh; subst; try reflexivity; [congruence|]. destruct Fl as (Fl & _). match goal with X : holds _ _ ?b _ _ |- _ => inversion X end; subst; try discriminate. reflexivity. }
  assert (Va : In REGISTER_A volatile) by (cbn; tauto).
  destruct (load_specific_spec (emit_load_gpr ss) s m M0 [] o id fp REGISTER_A ld s1 load_ok_emit (quiet_load ss) A (or_introl Co) G Nb Va) as (m1 & Ld & Ir); [|exact E1|lia|].
  { intros k Hk. destruct (Nat.eq_dec k id) as [->|Nk]; [left; reflexivity|right]. rewrite Fp. intros [X|[]]. congruence. }
  destruct Ld as (fp' & A1 & T1 & _). destruct (loads_reg _ _ _ _ _ _ _ _ _ A1 Ir) as (_ & _ & _ & _ & Vr & _).
  destruct (free_spec _ _ _ _ _ _ _ _ _ A1 E2) as (_ & A2 & _ & T2).
  exists m1. split; [eapply trans_trans with (b := s1) (mb := m1); assumption|]. split; [exact A2|]. rewrite B, <- V. exact Vr.
Qed.

(** ** The body of a function *)
Lemma body_sim : forall c js m bytes t r mv', select_all off vb c = Some js -> LowerModel.exec vb c [] mv = LowerModel.Next ([r], mv') ->
  emit_function ss (js ++ [IR_return]) = Done (bytes, t) -> t <= TL ->
  (forall q, regs m q = regs0 q) -> (forall q, word (regs m q)) -> mem m = M0 ->
  exists m', runs bytes m m' /\ regs m' RAX mod 2 ^ LowerModel.operand_bits vb r = LowerModel.contents mv r /\
    (forall q, ~ In q volatile -> regs m' q = regs0 q) /\ (forall a, ~ spill_area ss TL regs0 a -> mem m' a = M0 a).
Proof.
  intros c js m bytes t r mv' Hs He Hf Ht Hr Hw Hm. unfold emit_function, obind in Hf.
  destruct (emit_irs ss (js ++ [IR_return]) None [] initial) as [[stf sf]| |] eqn:E; try discriminate.
  destruct stf; try discriminate. destruct (forallb _ volatile) eqn:Fb in Hf; try discriminate.
  assert (W : sim initial m M0 []).
  { split; [|constructor|constructor]. split; cbn.
    - eexists. split; [reflexivity|]. split; reflexivity.
    - discriminate.
    - intros [|[|i]] l H; try discriminate. injection H as <-. cbn. lia.
    - intros q _. apply Hr.
    - exact Hw.
    - lia.
    - intros a _. rewrite Hm. reflexivity. }
  assert (I0 : inv initial m [] []) by (exists []; split; [exact W|]; split; [constructor|]; split; [reflexivity|constructor]).
  destruct (patch_all (code sf) (jumps sf) (labels sf)) as [z| |] eqn:Ep; try discriminate.
  assert (z = bytes /\ tsa sf = t) as (-> & Et) by (split; congruence). clear Hf.
  destruct (code_sim c js [] [r] mv' initial m [] [] sf Hs He (or_introl I0) E ltac:(lia)) as (_ & s1 & m1 & stk1 & T1 & I1 & J1 & E1).
  pose proof (quiet_ir ss IR_return None stk1 eq_refl _ _ _ E1) as Q.
  destruct (return_step _ _ _ _ _ _ I1 E1 ltac:(lia)) as (m2 & T2 & S2 & V2).
  destruct (trans_trans _ _ _ _ _ _ T1 T2) as (bs & Ec & R). rewrite (q_jumps _ _ Q), J1 in Ep. cbn in Ep, Ec. injection Ep as <-.
  rewrite <- Ec in R. exists m2. split; [exact R|]. split; [exact V2|]. destruct (sim_wf _ _ _ _ S2) as [_ _ _ Wr _ _ Wm]. auto.
Qed.
End Expr.
