(** The code generated for calls does what the calls mean. *)
From Coq Require Import Permutation.
From Verif Require Import IntTypes SelectModel Base X64Decode X64Machine EncModel EncSpec EncProofs EncProps EmitModel StepProofs ExecProofs EmitBasics EmitSim EmitOps EmitExpr.
From Verif Require IntProofs JumpSpec JumpProofs LowerModel.
From Verif Require Import CSpec CallSpec CallModel.

Section Call.
Variables (ss TL : Z) (regs0 : Z -> Z).
Let bpv := regs0 5.
Hypothesis H_ss : 0 <= ss.
Hypothesis H_TL : 0 <= TL.
Hypothesis H_off : ss + TL <= 2 ^ 31.
Hypothesis H_bp : ss + TL <= bpv < 2 ^ 64.

Local Notation wf := (wf ss TL regs0).
Local Notation holds := (holds ss regs0).
Local Notation sim := (sim ss TL regs0).
Local Notation frame := (frame ss).
Local Notation spills := (spills ss TL regs0).
Local Notation loads := (loads ss TL regs0).
Local Notation yields := (yields ss TL regs0).
Local Notation val := (val regs0).
Local Notation good := (good ss TL regs0).
Local Notation outside := (outside ss TL regs0).
Local Notation loaded := (loaded regs0).
Local Notation readable := (readable ss TL regs0).
Local Notation peek := (peek regs0).
Local Notation load_ok := (load_ok ss TL regs0).
Local Notation reloaded := (reloaded regs0).
Local Notation load_ok_emit := (load_ok_emit ss TL regs0 H_ss H_TL H_off H_bp).
Local Notation load_specific_spec := (load_specific_spec ss TL regs0 H_ss H_TL H_off H_bp).
Local Notation rr_spec := (rr_spec ss TL regs0 H_ss H_TL H_bp).
Local Notation peek_val := (peek_val ss TL regs0 H_bp).
Local Notation take_spec := (take_spec ss TL regs0 H_ss H_off H_bp).
Local Notation binary_spec := (binary_spec ss TL regs0 H_ss H_TL H_off H_bp).
Local Notation free_spec := (free_spec ss TL regs0 H_ss H_bp).
Local Notation sim_set := (sim_set ss TL regs0 H_ss H_bp).
Local Notation sim_code := (sim_code ss TL regs0 H_ss H_bp).
Local Notation loads_reg := (loads_reg ss TL regs0 H_ss H_TL H_bp).
Local Notation sim_write_head := (sim_write_head ss TL regs0 H_ss H_bp).
Local Notation specific_spec := (specific_spec ss TL regs0 H_ss H_off H_bp).
Local Notation allocate_spec := (allocate_spec ss TL regs0 H_ss H_off H_bp).
Local Notation loaded_spec := (loaded_spec ss TL regs0 H_ss H_bp).
Local Notation holds_loaded := (holds_loaded ss TL regs0 H_ss H_TL H_bp).
Local Notation sim_same := (sim_same ss TL regs0 H_ss H_bp).
Local Notation sim_locks := (sim_locks ss TL regs0 H_ss H_bp).
Local Notation sim_new := (sim_new ss TL regs0 H_ss H_bp).
Local Notation sim_keep := (sim_keep ss TL regs0 H_ss H_bp).
Local Notation sim_write := (sim_write ss TL regs0 H_ss H_bp).
Local Notation sim_write_any := (sim_write_any ss TL regs0 H_ss H_bp).
Local Notation emitted_rel := (emitted_rel ss TL regs0 H_bp).
Local Notation legal0 := (legal0 regs0).
Local Notation legal1 := (legal1 regs0).
Local Notation sim_head := (sim_head ss TL regs0).
Local Notation sim_wf := (sim_wf ss TL regs0).
Local Notation sim_drop := (sim_drop ss TL regs0).
Local Notation sim_ids := (sim_ids ss TL regs0).
Local Notation sim_cons := (sim_cons ss TL regs0).
Local Notation sim_swap := (sim_swap ss TL regs0).
Local Notation sim_perm := (sim_perm ss TL regs0).
Local Notation sim_disjoint := (sim_disjoint ss TL regs0).
Local Notation sim_fresh := (sim_fresh ss TL regs0).
Local Notation holds_nonzero := (holds_nonzero ss TL regs0).
Local Notation wf_map := (wf_map ss TL regs0).
Local Notation wf_ps := (wf_ps ss TL regs0).
Local Notation wf_bp := (wf_bp ss TL regs0).
Local Notation wf_regs := (wf_regs ss TL regs0).
Local Notation wf_word := (wf_word ss TL regs0).
Local Notation wf_tsa := (wf_tsa ss TL regs0).
Local Notation wf_mem := (wf_mem ss TL regs0).
Local Notation ids_exist := (ids_exist ss TL regs0).
Local Notation spills_clear := (spills_clear ss TL regs0).
Local Notation sp_trans := (sp_trans ss TL regs0).
Local Notation sp_sim := (sp_sim ss TL regs0).
Local Notation sp_frame := (sp_frame ss TL regs0).
Local Notation sp_fl := (sp_fl ss TL regs0).
Local Notation sp_regs := (sp_regs ss TL regs0).
Local Notation sp_map := (sp_map ss TL regs0).
Local Notation sp_len := (sp_len ss TL regs0).
Local Notation f_code := (f_code ss TL regs0).
Local Notation f_tsa := (f_tsa ss TL regs0).
Local Notation f_len := (f_len ss TL regs0).
Local Notation f_heap := (f_heap ss TL regs0).
Local Notation f_map := (f_map ss TL regs0).
Local Notation f_wf := (f_wf ss TL regs0).
Local Notation f_clear := (f_clear ss TL regs0).
Local Notation outside_load := (outside_load ss TL regs0).
Local Notation sim_base := (sim_base ss TL regs0).
Local Notation wf_write := (wf_write ss TL regs0).
Local Notation pinned_ready := (pinned_ready ss TL regs0).
Local Notation holds_id := (holds_id ss regs0).
Local Notation holds_ids := (holds_ids ss regs0).
Local Notation HReg := (HReg ss regs0).
Local Notation HSlot := (HSlot ss regs0).
Local Notation HIm := (HIm ss regs0).
Local Notation HLv := (HLv ss regs0).
Local Notation HSl := (HSl ss regs0).
Local Notation holds_relative := (holds_relative ss regs0).
Local Notation holds_write := (holds_write ss regs0).
Local Notation loc_ok := (loc_ok ss regs0).
Local Notation slots_kept := (slots_kept ss regs0).
Local Notation frame_trans := (frame_trans ss).
Local Notation frame_weaken := (frame_weaken ss).
Local Notation frame_clear := (frame_clear ss).
Local Notation frame_lock := (frame_lock ss).
Local Notation frame_locked := (frame_locked ss).
Local Notation frame_new := (frame_new ss).
Local Notation frame_unloaded := (frame_unloaded ss).
Local Notation lock_inv := (lock_inv ss).
Local Notation frame_refl := (frame_refl ss).
Local Notation mod_le := (mod_le regs0).
Local Notation unlock_lock := (unlock_lock regs0).
Local Notation legal_bin := (legal_bin regs0).
Local Notation loaded_no_bp := (loaded_no_bp regs0).
Local Notation I_xor_self := (I_xor_self regs0).
Local Notation wrote_narrow := (wrote_narrow regs0).
Local Notation base_register := (base_register ss TL regs0 H_bp).
#[local] Hint Resolve quiet_loaded quiet_conditional quiet_relative quiet_stack_relative quiet_immediate quiet_spill quiet_specific quiet_allocate
  quiet_free quiet_prevent_freeing quiet_allow_freeing quiet_unlock quiet_allow_spilling quiet_loaded_register quiet_emit_op quiet_ext_op
  quiet_register_register quiet_register_relative_with quiet_load quiet_load_specific quiet_prevent_spilling quiet_rr quiet_ri quiet_load_address quiet_store quiet_binary_op
  quiet_dmm quiet_shift quiet_compare_to_zero quiet_integer_cast quiet_load_bitfield quiet_load_into quiet_load_fuel : quiet.

Ltac later E Q := match type of E with ?c ?s1 = Done (_, ?s2) =>
  let q := fresh in assert (q : quiet c) by quiet_auto; pose proof (q_tsa _ _ (q _ _ _ E)) as Q; clear q end.

Local Notation yreg := (yreg ss TL regs0).
Local Notation yreg_yields := (yreg_yields ss TL regs0).
Local Notation yreg_facts := (yreg_facts ss TL regs0 H_ss H_TL H_bp).
Local Notation load_spec := (load_spec ss TL regs0 H_ss H_TL H_off H_bp).
Local Notation not_spec := (not_spec ss TL regs0 H_ss H_TL H_off H_bp).
Local Notation resize_spec := (resize_spec ss TL regs0 H_ss H_bp).
Local Notation resize_frame := (resize_frame ss).
Local Notation mod_mod_le := (mod_mod_le regs0).
Local Notation truncate_spec := (truncate_spec ss TL regs0 H_ss H_TL H_bp).
Local Notation cast_im_spec := (cast_im_spec ss TL regs0 H_ss H_off H_bp).
Local Notation converts_val := (converts_val ss TL regs0 H_ss H_TL H_off H_bp).
Local Notation zx32_spec := (zx32_spec ss TL regs0 H_ss H_TL H_off H_bp).
Local Notation cond_load := (cond_load ss TL regs0 H_ss H_off H_bp).
Local Notation conds := (conds ss TL regs0).
Local Notation yields_trans := (yields_trans ss TL regs0).
Local Notation conds_load := (conds_load ss TL regs0 H_ss H_off H_bp).
Local Notation conds_unmapped := (conds_unmapped ss TL regs0).
Local Notation conds_negate := (conds_negate ss TL regs0 H_ss H_bp).
Local Notation range_of_size := (range_of_size ss TL regs0 H_ss H_TL H_bp).
Local Notation compare_spec := (compare_spec ss TL regs0 H_ss H_TL H_off H_bp).
Local Notation compare_zero_spec := (compare_zero_spec ss TL regs0 H_ss H_TL H_bp).
Local Notation to_bool_spec := (to_bool_spec ss TL regs0 H_ss H_TL H_off H_bp).
Local Notation frame_step := (frame_step ss regs0).
Local Notation holds_size := (holds_size ss regs0).
Local Notation shift_spec := (shift_spec ss TL regs0 H_ss H_TL H_off H_bp).
Local Notation dmm_spec := (dmm_spec ss TL regs0 H_ss H_TL H_off H_bp).

Local Notation spill_spec := (spill_spec ss TL regs0 H_ss H_off H_bp).
Local Notation clear_kept := (clear_kept ss TL regs0).
Local Notation all_ids := (all_ids ss TL regs0).

(** ** An argument in its register *)
Definition placed (s : emitter) (x : item) (r : Z) : Prop :=
  exists n v id l, x = (Rv n v, id, [id]) /\ nth_error (heap s) id = Some l /\ l_state l = Loaded r /\ l_size l = n /\
    l_prevent_spilling l = 1 /\ l_prevent_freeing l = 0.

Lemma placed_frame : forall s s' fp x r, placed s x r -> frame s s' fp -> (forall i, In i (snd x) -> ~ In i fp) -> placed s' x r.
Proof.
  intros s s' fp x r (n & v & id & l & -> & E & S & Z & P & Q) F N. exists n, v, id, l. split; [reflexivity|].
  split; [|auto]. eapply frame_locked; [exact F|exact E|apply N; left; reflexivity|lia].
Qed.

Lemma all_placed_frame : forall s s' fp P rs, Forall2 (placed s) P rs -> frame s s' fp ->
  (forall i, In i (concat (map snd P)) -> ~ In i fp) -> Forall2 (placed s') P rs.
Proof.
  intros s s' fp P rs H F N. induction H as [|x r P rs Hx H IH]; constructor.
  - eapply placed_frame; [exact Hx|exact F|]. intros i Hi. apply N. cbn. apply in_or_app. left. exact Hi.
  - apply IH. intros i Hi. apply N. cbn. apply in_or_app. right. exact Hi.
Qed.

Lemma sim_apart : forall s m M0 x P L i, sim s m M0 (x :: P ++ L) -> In i (concat (map snd P)) -> ~ In i (snd x).
Proof.
  intros s m M0 x P L i [_ _ N] Hi Hx. cbn in N. rewrite map_app, concat_app in N.
  destruct (NoDup_app_elim _ _ _ N) as (_ & _ & D). apply (D i Hx). apply in_or_app. left. exact Hi.
Qed.

(** Locking a register. *)
Lemma lock_placed : forall s m M0 n v id r P R rs u s', sim s m M0 ((Rv n v, id, [id]) :: P ++ R) -> in_reg s id r n ->
  clear s [id] -> all_clear s R -> Forall2 (placed s) P rs -> prevent_spilling ss id s = Done (u, s') ->
  sim s' m M0 ((Rv n v, id, [id]) :: P ++ R) /\ trans s m s' m /\ all_clear s' R /\ Forall2 (placed s') ((Rv n v, id, [id]) :: P) (r :: rs).
Proof.
  intros s m M0 n v id r P R rs u s' H (l & E & S & Z) C CR HP Pv.
  assert (NR : forall a b c d, l_state l <> RegRel a b c d) by (intros; congruence).
  pose proof (lock_inv _ _ _ _ _ E NR Pv) as ->.
  destruct (C id l (or_introl eq_refl) E) as (C1 & C2).
  assert (F : frame s (in_heap (replace_nth id (with_ps 1 l) (heap s)) s) [id]).
  { intros j k Ej N. left. cbn. rewrite replace_diff; [exact Ej|]. intros <-. apply N. left. reflexivity. }
  split; [|split; [|split]].
  - eapply sim_locks; [exact H|exact E|split; reflexivity|cbn; lia|cbn; lia].
  - apply trans_refl. reflexivity.
  - refine (clear_kept M0 s m _ [id] ((Rv n v, id, [id]) :: P) R H CR _ _).
    + eapply frame_weaken; [exact F|]. intros i Hi. right. exact Hi.
    + intros i [<-|[]]. left. reflexivity.
  - constructor.
    + exists n, v, id, (with_ps 1 l). split; [reflexivity|]. split; [cbn; eapply replace_same; exact E|]. split; [exact S|]. split; [exact Z|]. cbn. split; [lia|exact C2].
    + eapply all_placed_frame; [exact HP|exact F|]. intros i Hi. exact (sim_apart _ _ _ _ _ _ _ H Hi).
Qed.

Lemma place_one : forall s m M0 o id fp P R rs r id' s', sim s m M0 ((o, id, fp) :: P ++ R) -> clear s fp -> all_clear s R ->
  Forall2 (placed s) P rs -> good M0 o -> o <> Bp -> In r volatile ->
  place_argument ss r id s = Done (id', s') -> tsa s' <= TL ->
  exists m', let x := (Rv (osize o) (val M0 o), id', [id']) in
    sim s' m' M0 (x :: P ++ R) /\ trans s m s' m' /\ all_clear s' R /\ Forall2 (placed s') (x :: P) (r :: rs).
Proof.
  intros s m M0 o id fp P R rs r id' s' H C CR HP G NB Hr E HT. unfold place_argument in E.
  unbind E l s1 E1. apply get_inv' in E1. destruct E1 as (El & ->).
  pose proof (sim_head _ _ _ _ _ _ _ H) as Hh. pose proof (sim_wf _ _ _ _ H) as W.
  destruct (match l_state l with Loaded q => q =? r | _ => false end) eqn:Eq.
  - destruct (l_state l) as [q| | | |] eqn:S; try discriminate. apply Z.eqb_eq in Eq. subst q.
    unbind E u s1 E1. apply ret_inv in E. destruct E as (-> & Es). subst s1.
    destruct (holds_loaded _ _ _ _ _ _ _ _ Hh W El S) as (Z & Pz & V & [(X & _)|((v & Ho) & Hv & Rm & Hf)]); [congruence|].
    assert (Hx : (o, id, fp) = (Rv (osize o) (val M0 o), id, [id])).
    { rewrite Hf. rewrite Ho at 1. f_equal. f_equal. rewrite Ho. reflexivity. }
    rewrite Hx in H. rewrite Hf in C. exists m. cbv zeta.
    refine (lock_placed _ _ _ _ _ _ r _ _ rs _ _ H _ C CR HP E1). exists l. auto.
  - unbind E r1 s1 E1. unbind E id1 s2 E2. unbind E u s3 E3. apply ret_inv in E. destruct E as (-> & Es). subst s3.
    pose proof (q_tsa _ _ (quiet_load_specific _ _ _ _ _ _ E2)) as Q2. pose proof (q_tsa _ _ (quiet_prevent_spilling _ _ _ _ _ E3)) as Q3.
    destruct (specific_spec r s r1 s1 m M0 _ H E1 ltac:(lia)) as (-> & m1 & Sp & Rn & _ & _).
    assert (Hex : forall i, In i fp -> exists k, nth_error (heap s) i = Some k) by (eapply holds_ids; exact Hh).
    assert (C1 : clear s1 fp) by (eapply spills_clear; [exact Sp|exact Hex|exact C]).
    pose proof (sp_sim _ _ _ _ _ _ Sp) as H1.
    assert (CR1 : all_clear s1 R).
    { refine (clear_kept M0 s m _ [] ((o, id, fp) :: P) R H CR _ ltac:(intros ? [])). eapply frame_weaken; [apply (sp_frame _ _ _ _ _ _ Sp)|intros ? []]. }
    assert (HP1 : Forall2 (placed s1) P rs) by (eapply all_placed_frame; [exact HP|apply (sp_frame _ _ _ _ _ _ Sp)|intros ? ? []]).
    destruct (load_specific_spec (emit_load_gpr ss) s1 m1 M0 (P ++ R) o id fp r id1 s2 load_ok_emit (quiet_load ss) H1 (or_introl C1) G NB Hr) as (m2 & Ld & Ir);
      [intros k Hk; congruence|exact E2|lia|].
    destruct Ld as (fp' & A2 & T2 & F2 & _ & _ & Cl2 & _).
    destruct (loads_reg _ _ _ _ _ _ _ _ _ A2 Ir) as (-> & _).
    assert (CR2 : all_clear s2 R).
    { refine (clear_kept M0 s1 m1 _ fp ((o, id, fp) :: P) R H1 CR1 _ _).
      - eapply frame_weaken; [exact F2|]. intros i Hi. right. exact Hi.
      - intros i Hi. cbn. apply in_or_app. left. exact Hi. }
    assert (HP2 : Forall2 (placed s2) P rs).
    { eapply all_placed_frame; [exact HP1|exact F2|]. intros i Hi. exact (sim_apart _ _ _ _ _ _ _ H1 Hi). }
    destruct (lock_placed _ _ _ _ _ _ r _ _ rs _ _ A2 Ir (Cl2 C1) CR2 HP2 E3) as (A3 & T3 & CR3 & HP3).
    exists m2. cbv zeta. split; [exact A3|]. split; [|split; [exact CR3|exact HP3]].
    eapply trans_trans; [apply Sp|]. eapply trans_trans; [exact T2|exact T3].
Qed.

(** All arguments: [A] are the items, the last argument first. *)
Definition in_place (M0 : Z -> Z) (A P : list item) : Prop :=
  Forall2 (fun a p => fst (fst p) = Rv (osize (fst (fst a))) (val M0 (fst (fst a)))) A P.

Definition argument_register (i : nat) (r : Z) : Prop := nth_error argument_registers i = Some r.

Lemma registers_from : forall k, (k <= 4)%nat -> length (firstn k argument_registers) = k.
Proof. intros k H. rewrite firstn_length. cbn [argument_registers length]. lia. Qed.

Lemma nth_firstn : forall A (l : list A) k x, nth_error l k = Some x -> firstn (S k) l = firstn k l ++ [x].
Proof. induction l as [|a l IH]; intros [|k] x H; cbn in *; try discriminate; [congruence|]. f_equal. apply IH, H. Qed.

Lemma place_tsa : forall l s1 ids1 s', place_arguments ss l s1 = Done (ids1, s') -> tsa s1 <= tsa s'.
Proof.
  induction l as [|i l IHl]; intros s1 ids1 s' E2; cbn [place_arguments] in E2.
  - apply ret_inv in E2. destruct E2 as (_ & ->). lia.
  - destruct (nth_error argument_registers (length l)) as [r|]; [|discriminate E2]. unbind E2 a s2 E3. unbind E2 b s3 E4. apply ret_inv in E2. destruct E2 as (_ & ->).
    specialize (IHl _ _ _ E4). assert (tsa s1 <= tsa s2); [|lia]. unfold place_argument in E3.
    unbind E3 k s4 E5. apply get_inv' in E5. destruct E5 as (_ & ->). destruct (match l_state k with Loaded q => q =? r | _ => false end).
    + unbind E3 u s4 E5. apply ret_inv in E3. destruct E3 as (_ & ->). exact (q_tsa _ _ (quiet_prevent_spilling _ _ _ _ _ E5)).
    + unbind E3 u s4 E5. unbind E3 u1 s5 E6. unbind E3 u2 s6 E7. apply ret_inv in E3. destruct E3 as (_ & ->).
      pose proof (q_tsa _ _ (quiet_specific _ _ _ _ _ E5)). pose proof (q_tsa _ _ (quiet_load_specific _ _ _ _ _ _ E6)).
      pose proof (q_tsa _ _ (quiet_prevent_spilling _ _ _ _ _ E7)). lia.
Qed.

Lemma spill_tsa : forall rs l s1 u s', spill_others ss rs l s1 = Done (u, s') -> tsa s1 <= tsa s'.
Proof.
  induction rs as [|q rs IHr]; intros l s1 u s' E; cbn [spill_others] in E.
  - assert (s' = s1) by congruence. subst. lia.
  - destruct (rmap s1 q); [|eapply IHr, E]. destruct (match l with p :: _ => _ | [] => false end); [eapply IHr, E|].
    unbind E u2 s2 E2. pose proof (q_tsa _ _ (quiet_spill _ _ _ _ _ E2)). specialize (IHr _ _ _ _ E). lia.
Qed.

Lemma place_all : forall A s m M0 P rs L ids' s', sim s m M0 (P ++ A ++ L) -> all_clear s A -> all_clear s L -> Forall2 (placed s) P rs ->
  Forall (fun x => good M0 (fst (fst x)) /\ fst (fst x) <> Bp) A ->
  place_arguments ss (ids A) s = Done (ids', s') -> tsa s' <= TL ->
  exists m' Q, sim s' m' M0 (rev Q ++ P ++ L) /\ trans s m s' m' /\ all_clear s' L /\
    Forall2 (placed s') (rev Q ++ P) (firstn (length A) argument_registers ++ rs) /\
    in_place M0 A Q /\ ids' = ids Q /\ (length A <= 4)%nat.
Proof.
  induction A as [|[[o id] fp] A IH]; intros s m M0 P rs L ids' s' H CA CL HP HG E HT.
  - cbn in E. apply ret_inv in E. destruct E as (-> & ->). exists m, []. cbn. split; [exact H|]. split; [apply trans_refl; reflexivity|].
    split; [exact CL|]. split; [exact HP|]. split; [constructor|]. split; [reflexivity|lia].
  - cbn [ids map place_arguments fst snd] in E.
    rewrite map_length in E. match type of E with context [nth_error ?a ?b] => destruct (nth_error a b) as [r|] eqn:Hr end; [|discriminate E].
    change (nth_error argument_registers (length A) = Some r) in Hr.
    unbind E id1 s1 E1. unbind E ids1 s2 E2. apply ret_inv in E. destruct E as (-> & Es). subst s2.
    inversion CA as [|? ? C1 CA1]; subst. inversion HG as [|? ? (G1 & N1) HG1]; subst. cbn [fst snd] in *.
    assert (Hv : In r volatile).
    { apply nth_error_In in Hr. cbn in Hr |- *. tauto. }
    pose proof (place_tsa _ _ _ _ E2) as Q2.
    assert (H0 : sim s m M0 ((o, id, fp) :: P ++ (A ++ L))).
    { eapply sim_perm; [|exact H]. cbn. apply Permutation_sym, Permutation_middle. }
    destruct (place_one _ _ _ _ _ _ _ _ rs r _ _ H0 C1 ltac:(apply Forall_app; split; assumption) HP G1 N1 Hv E1 ltac:(lia)) as (m1 & A1 & T1 & CR1 & HP1).
    apply Forall_app in CR1. destruct CR1 as (CA' & CL').
    destruct (IH s1 m1 M0 (_ :: P) (r :: rs) L ids1 s' A1 CA' CL' HP1 HG1 E2 HT) as (m2 & Q & A2 & T2 & CL2 & HP2 & IP & -> & Len).
    exists m2, ((Rv (osize o) (val M0 o), id1, [id1]) :: Q). cbn [rev]. rewrite <- !app_assoc. cbn [app].
    split; [exact A2|]. split; [eapply trans_trans; eassumption|]. split; [exact CL2|]. split; [|split; [|split]].
    + cbn [length]. rewrite (nth_firstn _ _ _ _ Hr), <- app_assoc. exact HP2.
    + constructor; [reflexivity|exact IP].
    + reflexivity.
    + cbn [length]. assert (length A < 4)%nat; [|lia]. apply nth_error_lt in Hr. exact Hr.
Qed.

(** ** Spilling the other registers *)
Lemma spill_others_spec : forall rs pl s m M0 L u s', sim s m M0 L -> spill_others ss rs pl s = Done (u, s') -> tsa s' <= TL ->
  exists m', spills s m s' m' M0 L /\
    forall r k, In r rs -> rmap s' r = Some k -> In k pl.
Proof.
  induction rs as [|r rs IH]; intros pl s m M0 L u s' H E HT; cbn [spill_others] in E.
  - assert (s' = s) by congruence. subst s'. exists m. split; [|intros ? ? []]. split; auto; [apply trans_refl; reflexivity|apply frame_refl].
  - assert (tl_in : forall k, In k (tl pl) -> In k pl) by (intros k Hk; destruct pl; [destruct Hk|right; exact Hk]).
    destruct (rmap s r) as [id|] eqn:Er.
    + destruct (match pl with p :: _ => Nat.eqb id p | [] => false end) eqn:Ep.
      * destruct pl as [|p pl]; [discriminate|]. apply Nat.eqb_eq in Ep. subst p.
        destruct (IH _ s m M0 L u s' H E HT) as (m' & Sp & K). exists m'. split; [exact Sp|].
        intros q k [<-|Hq] Hk; [|apply tl_in; eapply K; eassumption].
        left. pose proof (sp_map _ _ _ _ _ _ Sp _ _ Hk). congruence.
      * unbind E u1 s1 E1.
        pose proof (spill_tsa _ _ _ _ _ E) as Q.
        destruct (spill_spec r s u1 s1 m M0 L H E1 ltac:(lia)) as (m1 & T1 & A1 & F1 & Fl1 & Rg1 & Rn & Ro & Ln).
        destruct (IH _ s1 m1 M0 L u s' A1 E HT) as (m' & Sp & K). exists m'. split.
        -- split.
           ++ eapply trans_trans; [exact T1|apply Sp].
           ++ apply Sp.
           ++ eapply frame_trans with (b := s1) (f2 := []); [exact F1|apply Sp|intros ? []].
           ++ rewrite (sp_fl _ _ _ _ _ _ Sp). exact Fl1.
           ++ rewrite (sp_regs _ _ _ _ _ _ Sp). exact Rg1.
           ++ intros q k Hk. pose proof (sp_map _ _ _ _ _ _ Sp _ _ Hk) as X. destruct (Z.eq_dec q r) as [->|N]; [congruence|]. rewrite Ro in X by exact N. exact X.
           ++ rewrite (sp_len _ _ _ _ _ _ Sp). exact Ln.
        -- intros q k [<-|Hq] Hk; [|apply tl_in; eapply K; eassumption].
           pose proof (sp_map _ _ _ _ _ _ Sp _ _ Hk). congruence.
    + destruct (IH _ s m M0 L u s' H E HT) as (m' & Sp & K). exists m'. split; [exact Sp|].
      intros q k [<-|Hq] Hk; [|apply tl_in; eapply K; eassumption].
      pose proof (sp_map _ _ _ _ _ _ Sp _ _ Hk). congruence.
Qed.

(** ** Releasing the arguments *)
Lemma free_all : forall P rs s m M0 L u s', sim s m M0 (P ++ L) -> Forall2 (placed s) P rs -> all_clear s L ->
  free_arguments (ids P) s = Done (u, s') ->
  sim s' m M0 L /\ code s' = code s /\ tsa s' = tsa s /\ all_clear s' L /\
  (forall q k, rmap s' q = Some k -> rmap s q = Some k /\ ~ In k (ids P)).
Proof.
  induction P as [|x P IH]; intros rs s m M0 L u s' H HP CL E.
  - cbn in E. apply ret_inv in E. destruct E as (_ & ->). split; [exact H|]. split; [reflexivity|]. split; [reflexivity|]. split; [exact CL|]. auto.
  - inversion HP as [|? r ? rs' Hx HP']; subst. destruct Hx as (n & v & id & l & -> & El & S & Z & Ps & Pf).
    cbn [ids map free_arguments fst snd] in E. unbind E u1 s1 E1. unbind E u2 s2 E2.
    assert (NR : forall a b c d, l_state l <> RegRel a b c d) by (intros; congruence).
    destruct (allow_inv _ _ _ _ _ El NR E1) as (-> & _). set (s1 := in_heap _ s) in *.
    assert (F1 : frame s s1 [id]).
    { intros j k Ej N. left. cbn. rewrite replace_diff; [exact Ej|]. intros <-. apply N. left. reflexivity. }
    assert (A1 : sim s1 m M0 ((Rv n v, id, [id]) :: P ++ L)) by (eapply sim_locks; [exact H|exact El|split; reflexivity|cbn; lia|cbn; lia]).
    cbn [app] in H. assert (C1 : clear s1 [id]).
    { intros i k [<-|[]] Hk. cbn in Hk. rewrite (replace_same _ _ _ _ _ El) in Hk. assert (k = with_ps (-1) l) by congruence. subst k. cbn. lia. }
    assert (CL1 : all_clear s1 L).
    { refine (clear_kept M0 s m _ [id] ((Rv n v, id, [id]) :: P) L H CL _ _).
      - eapply frame_weaken; [exact F1|]. intros i Hi. right. exact Hi.
      - intros i [<-|[]]. left. reflexivity. }
    assert (HP1 : Forall2 (placed s1) P rs') by (eapply all_placed_frame; [exact HP'|exact F1|intros i Hi; exact (sim_apart _ _ _ _ _ _ _ H Hi)]).
    destruct (free_spec _ _ _ _ _ _ _ _ _ A1 E2) as (Fr & A2 & F2 & _).
    assert (CL2 : all_clear s2 L).
    { refine (clear_kept M0 s1 m _ [id] ((Rv n v, id, [id]) :: P) L A1 CL1 _ _).
      - eapply frame_weaken; [exact F2|]. intros i Hi. right. exact Hi.
      - intros i [<-|[]]. left. reflexivity. }
    assert (HP2 : Forall2 (placed s2) P rs') by (eapply all_placed_frame; [exact HP1|exact F2|intros i Hi; exact (sim_apart _ _ _ _ _ _ _ A1 Hi)]).
    destruct (IH rs' s2 m M0 L u s' A2 HP2 CL2 E) as (A3 & Ec & Et & CL3 & K).
    split; [exact A3|]. split; [rewrite Ec, (f_code _ _ _ _ _ Fr); reflexivity|]. split; [rewrite Et, (f_tsa _ _ _ _ _ Fr); reflexivity|].
    split; [exact CL3|]. intros q k Hk. destruct (K q k Hk) as (K1 & K2). split.
    + destruct (f_map _ _ _ _ _ Fr q) as [X|(X & _)]; [rewrite X in K1; exact K1|congruence].
    + intros [<-|X]; [|exact (K2 X)]. exact (f_clear _ _ _ _ _ Fr C1 id q (or_introl eq_refl) K1).
Qed.

(** ** The call *)
Variables (vb off : nat -> Z) (mv : LowerModel.memory).
Hypothesis H_size : forall x, is_size_P (vb x / 8) /\ vb x = 8 * (vb x / 8) /\ vb x / 8 <= off x <= ss.
Variables (W : Type) (sigs : nat -> signature) (meaning : nat -> list Z -> W -> option (Z * W)) (world : (Z -> Z) -> W -> Prop)
  (callee : nat -> machine -> option machine).
Hypothesis H_conf : conforms sigs meaning world regs0 (bpv - ss - TL) bpv callee.
Hypothesis H_world : independent world (bpv - ss - TL) bpv.

Local Notation matches := (matches ss TL regs0 vb off mv).
Local Notation inv := (inv ss TL regs0 vb off mv).
Local Notation cinv := (cinv ss TL regs0 vb off mv).

Definition vars (M : Z -> Z) : Prop := forall x, load (Z.to_nat (vb x / 8)) M (wrapu 64 (bpv + - off x)) = mv x.
Definition same_locals (M M' : Z -> Z) : Prop := forall a, bpv - ss <= a < bpv -> M' a = M a.

Lemma vars_full : forall M, vars M -> forall x, is_size_P (vb x / 8) /\ vb x = 8 * (vb x / 8) /\ outside (bpv + - off x) (vb x / 8) /\
  load (Z.to_nat (vb x / 8)) M (wrapu 64 (bpv + - off x)) = mv x.
Proof.
  intros M H x. destruct (H_size x) as (P & B & O). split; [exact P|]. split; [exact B|]. split; [|apply H].
  intros i Hi. unfold spill_area, wrapu. fold bpv in H_bp |- *. rewrite Z.mod_small by lia. lia.
Qed.

Lemma local_load : forall M M' x n, same_locals M M' -> 0 <= n <= vb x / 8 ->
  load (Z.to_nat n) M' (wrapu 64 (bpv + - off x)) = load (Z.to_nat n) M (wrapu 64 (bpv + - off x)).
Proof.
  intros M M' x n H Hn. destruct (H_size x) as (P & B & O). apply load_agree. intros i Hi. fold bpv in H_bp.
  assert (E : wrapu 64 (wrapu 64 (bpv + - off x) + i) = bpv - off x + i).
  { unfold wrapu. rewrite (Z.mod_small (bpv + - off x)) by lia. rewrite Z.mod_small by lia. lia. }
  rewrite E. apply H. lia.
Qed.

Lemma vars_kept : forall M M', vars M -> same_locals M M' -> vars M'.
Proof.
  intros M M' V H x. rewrite (local_load M M' x (vb x / 8) H); [apply V|]. destruct (H_size x) as (P & _). unfold is_size_P in P. lia.
Qed.

Lemma matches_kept : forall M M' c o, same_locals M M' -> matches M c o -> matches M' c o.
Proof.
  intros M M' c o H (G & NB & P & B & V & I & F).
  assert (X : good M' o /\ val M' o = val M o).
  { destruct o as [n v|n w| |b d n|n k v]; try (split; [exact G|reflexivity]).
    destruct F as (-> & x & -> & Hn). split; [exact G|]. cbn [EmitSim.val]. fold bpv. apply local_load; [exact H|]. cbn [osize] in P. unfold is_size_P in P. lia. }
  destruct X as (G' & V'). split; [exact G'|]. split; [exact NB|]. split; [exact P|]. split; [exact B|]. split; [rewrite V'; exact V|]. split; [exact I|exact F].
Qed.

(** The operands are the arguments. *)
Fixpoint args_hold (ps : list ity) (cs : list LowerModel.operand) (vs : list Z) : Prop :=
  match ps, cs, vs with
  | [], [], [] => True
  | p :: ps, c :: cs, v :: vs =>
      LowerModel.operand_bits vb c = width p /\ LowerModel.contents mv c = v mod 2 ^ width p /\ args_hold ps cs vs
  | _, _, _ => False
  end.

Lemma item_in_reg : forall s m M0 L x r, sim s m M0 L -> In x L -> placed s x r ->
  regs m r mod 2 ^ (8 * osize (fst (fst x))) = val M0 (fst (fst x)).
Proof.
  intros s m M0 L x r H Hi (n & v & id & l & -> & E & S & Z & _). destruct H as [Wf Hf _].
  rewrite Forall_forall in Hf. specialize (Hf _ Hi). unfold item_ok in Hf. cbn [fst snd] in *.
  apply (holds_loaded _ _ _ _ _ _ _ _ Hf Wf E S).
Qed.

Lemma passed_hold : forall ps cs vs A Q rs all s m M0 L, args_hold ps cs vs -> Forall2 (matches M0) cs (ops A) -> in_place M0 A Q ->
  Forall2 (placed s) Q rs -> rs = firstn (length A) all -> (length A <= length all)%nat -> sim s m M0 L -> incl Q L -> registers_hold all ps vs m.
Proof.
  induction ps as [|p ps IH]; intros cs vs A Q rs all s m M0 L Ha Hm Hp Hq Hr Hl H HI.
  - destruct cs, vs; cbn in Ha; try contradiction. destruct all; exact I.
  - destruct cs as [|c cs], vs as [|v vs]; cbn [args_hold] in Ha; try contradiction. destruct Ha as (B & V & Ha).
    destruct A as [|a A]; cbn [ops map] in Hm; inversion Hm as [|? ? ? ? M1 Hm']; subst. inversion Hp as [|? q ? Q' P1 Hp']; subst.
    destruct all as [|r all]; [cbn in Hl; lia|]. cbn [length firstn] in Hq. inversion Hq as [|? ? ? ? X1 Hq']; subst.
    cbn [registers_hold]. split.
    + pose proof (item_in_reg _ _ _ _ _ _ H (HI q (or_introl eq_refl)) X1) as R. rewrite P1 in R. cbn [osize EmitSim.val] in R.
      destruct M1 as (_ & _ & _ & Bo & Vo & _). rewrite <- Bo, B, Vo, V in R. exact R.
    + eapply IH; [exact Ha|exact Hm'|exact Hp'|exact Hq'|reflexivity|cbn in Hl; lia|exact H|]. intros z Hz. apply HI. right. exact Hz.
Qed.

Lemma Forall2_rev : forall A B (R : A -> B -> Prop) l l', Forall2 R l l' -> Forall2 R (rev l) (rev l').
Proof. intros A B R l l' H. induction H; cbn; [constructor|]. apply Forall2_app; [assumption|]. constructor; [assumption|constructor]. Qed.

Lemma Forall2_len : forall A B (R : A -> B -> Prop) l l', Forall2 R l l' -> length l = length l'.
Proof. intros A B R l l' H. induction H; cbn; congruence. Qed.

Lemma matches_good : forall M0 A cs, Forall2 (matches M0) cs (ops A) -> Forall (fun x : item => good M0 (fst (fst x)) /\ fst (fst x) <> Bp) A.
Proof.
  intros M0. induction A as [|a A IH]; intros cs H; [constructor|]. cbn [ops map] in H. inversion H as [|c ? cs' ? M1 H']; subst.
  constructor; [split; apply M1|eapply IH, H'].
Qed.

Lemma matches_all_kept : forall M0 M1 cs os, same_locals M0 M1 -> Forall2 (matches M0) cs os -> Forall2 (matches M1) cs os.
Proof. intros M0 M1 cs os SL H. induction H; constructor; [eapply matches_kept; [exact SL|assumption]|assumption]. Qed.

Lemma width_is_bits : forall t, width t = bits t.
Proof. intros []; reflexivity. Qed.

Lemma call_step : forall f args vs Ls s m M0 w v w1 stk stk' pos s', vars M0 -> world M0 w -> inv M0 s m (args ++ Ls) stk ->
  args_hold (parameters (sigs f)) (rev args) vs -> meaning f vs w = Some (v, w1) ->
  emit_call ss (length args) (bits (result (sigs f)) / 8) stk s = Done ((stk', pos), s') -> tsa s' <= TL ->
  exists m1 m2 M1 bs, code s' = code s ++ bs ++ [0xE8; 0; 0; 0; 0] /\ runs bs m m1 /\ pos = Z.of_nat (length (code s ++ bs)) + 1 /\
    callee f m1 = Some m2 /\ pc m2 = pc m1 + 5 /\ vars M1 /\ world M1 w1 /\ same_locals M0 M1 /\
    inv M1 s' m2 (LowerModel.Value (width (result (sigs f))) (v mod 2 ^ width (result (sigs f))) :: Ls) stk'.
Proof.
  intros f args vs Ls s m M0 w v w1 stk stk' pos s' HV HW (L0 & H & CL & -> & Fm) Ha Hmean E HT.
  apply Forall2_app_inv_l in Fm. destruct Fm as (oa & ol & Fa & Fl & Eo). apply map_eq_app in Eo. destruct Eo as (A & L & -> & <- & <-).
  change (map (fun x : item => fst (fst x)) A) with (ops A) in Fa. change (map (fun x : item => fst (fst x)) L) with (ops L) in Fl.
  assert (LA : length args = length (ids A)) by (apply Forall2_len in Fa; unfold ops, ids in *; rewrite map_length in *; exact Fa).
  assert (LA' : length (ids A) = length A) by apply map_length.
  unfold emit_call in E. unbind E u0 s0 E0. apply assertion_inv' in E0. destruct E0 as (_ & ->).
  assert (EI : ids (A ++ L) = ids A ++ ids L) by apply map_app. rewrite EI in E.
  rewrite LA, firstn_app, skipn_app, firstn_all, skipn_all, Nat.sub_diag, app_nil_r in E. cbn [skipn app firstn] in E.
  unbind E pl s1 E1. unbind E u2 s2 E2. unbind E sx s3 E3. unfold get_state in E3. assert (sx = s2 /\ s3 = s2) as (-> & ->) by (split; congruence). clear E3.
  unbind E u4 s4 E4. apply out_inv in E4. unbind E u5 s5 E5. unbind E idr s6 E6. apply ret_inv in E. destruct E as (Er & ->).
  assert (stk' = idr :: ids L /\ pos = Z.of_nat (length (code s2)) + 1) as (-> & ->) by (split; congruence). clear Er.
  apply Forall_app in CL. destruct CL as (CA & CL).
  pose proof (q_tsa _ _ (quiet_loaded _ _ _ _ _ E6)) as Q6. pose proof (spill_tsa _ _ _ _ _ E2) as Q2.
  assert (Q5 : tsa s4 <= tsa s5).
  { clear - E5. revert s4 E5. generalize (rev pl). intro l. induction l as [|i l IH]; intros s4 E5; cbn [free_arguments] in E5.
    - apply ret_inv in E5. destruct E5 as (_ & ->). lia.
    - unbind E5 a s5' E6. unbind E5 b s6 E7. pose proof (q_tsa _ _ (quiet_allow_spilling _ _ _ _ E6)). pose proof (q_tsa _ _ (quiet_free _ _ _ _ E7)).
      specialize (IH _ E5). lia. }
  assert (Q4 : tsa s4 = tsa s2) by (subst s4; reflexivity).
  (* arguments *)
  destruct (place_all A s m M0 [] [] L pl s1 H CA CL ltac:(constructor)) as (m1 & Q & A1 & T1 & CL1 & HP1 & IP & -> & Len); [|exact E1|lia|].
  { eapply matches_good, Fa. }
  rewrite !app_nil_r in *. cbn [app] in A1.
  (* the other registers *)
  destruct (spill_others_spec volatile _ s1 m1 M0 _ u2 s2 A1 E2 ltac:(lia)) as (m2 & Sp & K2).
  pose proof (sp_sim _ _ _ _ _ _ Sp) as A2.
  assert (CL2 : all_clear s2 L).
  { refine (clear_kept M0 s1 m1 _ [] (rev Q) L A1 CL1 _ ltac:(intros ? [])). eapply frame_weaken; [apply (sp_frame _ _ _ _ _ _ Sp)|intros ? []]. }
  assert (HP2 : Forall2 (placed s2) (rev Q) (firstn (length A) argument_registers)) by (eapply all_placed_frame; [exact HP1|apply (sp_frame _ _ _ _ _ _ Sp)|intros ? ? []]).
  assert (Hpass : passed (parameters (sigs f)) vs m2).
  { unfold passed. refine (passed_hold _ (rev args) vs (rev A) (rev Q) (firstn (length A) argument_registers) argument_registers s2 m2 M0 _ Ha _ _ HP2 _ _ A2 _).
    - unfold ops. rewrite map_rev. apply Forall2_rev. exact Fa.
    - apply Forall2_rev. exact IP.
    - rewrite rev_length. reflexivity.
    - rewrite rev_length. exact Len.
    - intros z Hz. apply in_or_app. left. exact Hz. }
  (* the call *)
  destruct (trans_trans _ _ _ _ _ _ T1 (sp_trans _ _ _ _ _ _ Sp)) as (bs & Ec & Rn).
  assert (HWm : world (mem m2) w).
  { eapply H_world; [|exact HW]. intros a Ha'. apply (wf_mem _ _ _ (sim_wf _ _ _ _ A2)). unfold spill_area. fold bpv. lia. }
  assert (HSv : forall r, ~ may_change r -> regs m2 r = regs0 r).
  { intros r Hr. apply (wf_regs _ _ _ (sim_wf _ _ _ _ A2)). intro X. apply Hr. unfold may_change. cbn in X. lia. }
  destruct (H_conf f vs w v w1 m2 (wf_word _ _ _ (sim_wf _ _ _ _ A2)) HSv HWm Hmean Hpass) as (m3 & Ecall & Epc & ERax & ERegs & EWord & EMem & EW).
  (* releasing the arguments *)
  assert (A4 : sim s4 m2 M0 (rev Q ++ L)) by (subst s4; apply sim_code; exact A2).
  assert (HP4 : Forall2 (placed s4) (rev Q) (firstn (length A) argument_registers)) by (subst s4; exact HP2).
  assert (CL4 : all_clear s4 L) by (subst s4; exact CL2).
  assert (E5' : free_arguments (ids (rev Q)) s4 = Done (u5, s5)) by (unfold ids; rewrite map_rev; exact E5).
  destruct (free_all _ _ s4 m2 M0 L u5 s5 A4 HP4 CL4 E5') as (A5 & Ec5 & Et5 & CL5 & K5).
  assert (Rno : forall q, rmap s5 q = None).
  { intro q. destruct (rmap s5 q) as [k|] eqn:Hq; [|reflexivity]. destruct (K5 q k Hq) as (X & Y). subst s4. cbn [rmap in_code] in X.
    destruct (wf_map _ _ _ (sim_wf _ _ _ _ A2) q k X) as (Hv & _). exfalso. apply Y. unfold ids. rewrite map_rev. exact (K2 q k Hv X). }
  (* the machine after the call *)
  set (M1 := mem m3).
  assert (SL : same_locals M0 M1).
  { intros a Hal. unfold M1. rewrite EMem by lia. apply (wf_mem _ _ _ (sim_wf _ _ _ _ A2)). unfold spill_area. fold bpv. lia. }
  assert (A6 : sim s5 m3 M1 L).
  { eapply sim_keep; [exact A5| | |].
    - destruct (sim_wf _ _ _ _ A5) as [B Mp Ps R Wd T Mm]. split; try assumption.
      + intros r Hr. rewrite ERegs; [apply R, Hr|]. intro X. apply Hr. unfold may_change in X. cbn. lia.
      + intros a _. reflexivity.
    - intros i Hi. destruct (sim_ids _ _ _ _ _ A5 Hi) as (k & Ek). exists k, k. split; [exact Ek|]. split; [exact Ek|]. split; [reflexivity|]. left.
      split; [reflexivity|]. intros r _ X. rewrite Rno in X. discriminate.
    - split; [lia|]. intros a Hal. apply EMem. fold bpv in Hal. pose proof (wf_tsa _ _ _ (sim_wf _ _ _ _ A5)). lia. }
  set (n := bits (result (sigs f)) / 8) in *.
  assert (Pn : is_size_P n /\ width (result (sigs f)) = 8 * n) by (unfold n; rewrite width_is_bits; destruct (result (sigs f)); split; vm_compute; tauto).
  destruct Pn as (Pn & Bn).
  destruct (loaded_spec 0 n s5 idr s6 m3 M1 L A6 E6 ltac:(cbn; tauto) Pn) as (Hid & _ & Ec6 & Et6 & Hh6 & Hm6 & A7).
  exists m2, m3, M1, bs. split; [|split; [exact Rn|split; [|split; [exact Ecall|split; [exact Epc|split; [|split; [exact EW|split; [exact SL|]]]]]]]].
  - rewrite Ec6, Ec5. subst s4. cbn [code in_code]. rewrite Ec, <- app_assoc. reflexivity.
  - rewrite Ec. reflexivity.
  - eapply vars_kept; [exact HV|exact SL].
  - exists ((Rv n (regs m3 0 mod 2 ^ (8 * n)), idr, [idr]) :: L). split; [exact A7|]. split; [|split; [reflexivity|]].
    + constructor.
      * intros i l [<-|[]] El. rewrite Hh6, Hid, nth_error_new in El. assert (l = mkloc (Loaded 0) n 0 0) by congruence. subst l. split; reflexivity.
      * refine (clear_kept M1 s5 m3 s6 [] [] L A6 CL5 _ ltac:(intros ? [])). intros i l El _. left. rewrite Hh6. apply nth_error_old, El.
    + constructor.
      * cbn [fst]. rewrite Bn in *. rewrite ERax. apply match_value; [exact Pn|reflexivity].
      * eapply matches_all_kept; [exact SL|exact Fl].
Qed.

(** ** Runs with calls *)
Definition len (l : list Z) : Z := Z.of_nat (length l).
Definition part (text : list Z) (start k : Z) (bs : list Z) (sites : list (nat * Z)) : Prop :=
  forall i, 0 <= i < len bs -> (forall x, In x sites -> ~ (snd x <= k + i < snd x + 4)) ->
    nth_error text (Z.to_nat (start + (k + i))) = nth_error bs (Z.to_nat i).

Definition ctr (s : emitter) (sites : list (nat * Z)) (m : machine) (s' : emitter) (sites' : list (nat * Z)) (m' : machine) : Prop :=
  exists bs new, code s' = code s ++ bs /\ sites' = sites ++ new /\
    Forall (fun x => len (code s) < snd x /\ snd x + 4 <= len (code s')) new /\ pc m' = pc m + len bs /\
    forall text start later, 0 <= start -> pc m = start + len (code s) -> Forall (fun x => snd x + 4 <= len (code s)) sites ->
      Forall (fun x => len (code s') < snd x) later -> part text start (len (code s)) bs (sites' ++ later) ->
      crun text start (sites' ++ later) callee m m'.

Lemma crun_trans : forall text start sites a b c, crun text start sites callee a b -> crun text start sites callee b c -> crun text start sites callee a c.
Proof. intros text start sites a b c H. induction H; intro; [assumption|eapply crun_step; eauto|eapply crun_call; eauto]. Qed.

Lemma len_app : forall a b, len (a ++ b) = len a + len b.
Proof. intros. unfold len. rewrite app_length. lia. Qed.

Lemma nth_len : forall (a : list Z) i, nth_error a (Z.to_nat i) <> None -> 0 <= i -> i < len a.
Proof. intros a i H Hi. apply nth_error_Some in H. unfold len. lia. Qed.

Lemma part_app : forall text start k a b sites, part text start k (a ++ b) sites -> part text start k a sites /\ part text start (k + len a) b sites.
Proof.
  intros text start k a b sites H. split; intros i Hi Hs.
  - rewrite (H i); [|rewrite len_app; unfold len in *; lia|exact Hs]. apply nth_error_app1. unfold len in Hi. lia.
  - specialize (H (len a + i)). rewrite len_app in H. replace (k + len a + i) with (k + (len a + i)) by lia. rewrite H; [|unfold len in *; lia|].
    + rewrite nth_error_app2 by (unfold len in *; lia). f_equal. unfold len in *. lia.
    + intros x Hx. replace (k + (len a + i)) with (k + len a + i) by lia. exact (Hs x Hx).
Qed.

Lemma prefix_at : forall (bs l : list Z), (forall i, (i < length bs)%nat -> nth_error l i = nth_error bs i) -> exists rest, l = bs ++ rest.
Proof.
  induction bs as [|b bs IH]; intros l H; [exists l; reflexivity|]. destruct l as [|x l].
  - specialize (H 0%nat). cbn in H. specialize (H ltac:(lia)). discriminate.
  - pose proof (H 0%nat ltac:(cbn; lia)) as H0. cbn in H0. destruct (IH l) as (r & ->).
    { intros i Hi. exact (H (S i) ltac:(cbn; lia)). }
    exists r. cbn. congruence.
Qed.

Lemma nth_skipn : forall (l : list Z) n i, nth_error (skipn n l) i = nth_error l (n + i).
Proof. intros l n. revert l. induction n as [|n IH]; intros l i; [reflexivity|]. destruct l as [|x l]; [destruct i; reflexivity|]. apply IH. Qed.

(** Bytes without displacements *)
Lemma part_at : forall text start k bs sites, 0 <= start -> 0 <= k -> part text start k bs sites ->
  (forall x, In x sites -> snd x + 4 <= k \/ k + len bs <= snd x) -> at_code text (start + k) bs.
Proof.
  intros text start k bs sites Hs Hk H Hd. split; [lia|]. apply prefix_at. intros i Hi. rewrite nth_skipn.
  specialize (H (Z.of_nat i)). rewrite Nat2Z.id in H. rewrite <- H; [f_equal; lia|unfold len; lia|].
  intros x Hx. specialize (Hd x Hx). unfold len in Hd. lia.
Qed.

Lemma ctr_trans : forall s sites m s' m', trans s m s' m' -> ctr s sites m s' sites m'.
Proof.
  intros s sites m s' m' (bs & E & (P & R)). exists bs, []. rewrite app_nil_r. split; [exact E|]. split; [reflexivity|]. split; [constructor|]. split; [exact P|].
  intros text start later Hs Hp F Fl Hpart. assert (A : at_code text (pc m) bs).
  { rewrite Hp. eapply part_at; [exact Hs|unfold len; lia|exact Hpart|]. intros x Hx. apply in_app_or in Hx. rewrite Forall_forall in F, Fl. destruct Hx as [Hx|Hx].
    - left. exact (F x Hx).
    - right. specialize (Fl x Hx). rewrite E, len_app in Fl. lia. }
  specialize (R text A). clear - R. induction R; [apply crun_done|eapply crun_step; eassumption].
Qed.

Lemma ctr_comp : forall a sa ma b sb mb c sc mc, ctr a sa ma b sb mb -> ctr b sb mb c sc mc -> ctr a sa ma c sc mc.
Proof.
  intros a sa ma b sb mb c sc mc (x & nx & Ex & -> & Fx & Px & Rx) (y & ny & Ey & -> & Fy & Py & Ry). exists (x ++ y), (nx ++ ny).
  assert (Lb : len (code b) = len (code a) + len x) by (rewrite Ex; apply len_app).
  assert (Lc : len (code c) = len (code b) + len y) by (rewrite Ey; apply len_app).
  assert (0 <= len x /\ 0 <= len y) by (unfold len; lia).
  split; [rewrite Ey, Ex, app_assoc; reflexivity|]. split; [rewrite app_assoc; reflexivity|]. split; [|split; [rewrite len_app; lia|]].
  - apply Forall_app. rewrite !Forall_forall in *. split; intros z Hz; [specialize (Fx z Hz)|specialize (Fy z Hz)]; lia.
  - intros text start later Hs Hp F Fl Hpart. apply part_app in Hpart. destruct Hpart as (P1 & P2).
    rewrite <- Lb in P2.
    assert (EQ : ((sa ++ nx) ++ ny) ++ later = (sa ++ nx) ++ (ny ++ later)) by (rewrite !app_assoc; reflexivity).
    eapply crun_trans.
    + rewrite EQ. apply Rx; [exact Hs|exact Hp|exact F| |rewrite <- EQ; exact P1].
      apply Forall_app. rewrite !Forall_forall in *. split; intros z Hz; [specialize (Fy z Hz)|specialize (Fl z Hz)]; lia.
    + apply Ry; [exact Hs|lia| |exact Fl|exact P2].
      apply Forall_app. rewrite !Forall_forall in *. split; intros z Hz; [specialize (F z Hz)|specialize (Fx z Hz)]; lia.
Qed.

Lemma find_here : forall (sites later : list (nat * Z)) f p, Forall (fun x => snd x <> p) sites -> called ((sites ++ [(f, p)]) ++ later) p = Some f.
Proof.
  intros sites later f p F. unfold called. rewrite <- app_assoc. induction F as [|x l Hx F IH]; cbn [app find snd].
  - rewrite Z.eqb_refl. reflexivity.
  - rewrite (proj2 (Z.eqb_neq _ _) Hx). exact IH.
Qed.

(** The five bytes of a call *)
Lemma ctr_call : forall s s' sites m m' f, code s' = code s ++ [0xE8; 0; 0; 0; 0] -> callee f m = Some m' -> pc m' = pc m + 5 ->
  ctr s sites m s' (sites ++ [(f, len (code s) + 1)]) m'.
Proof.
  intros s s' sites m m' f E C P. exists [0xE8; 0; 0; 0; 0], [(f, len (code s) + 1)]. split; [exact E|]. split; [reflexivity|].
  assert (L5 : len [0xE8; 0; 0; 0; 0] = 5) by reflexivity.
  split; [|split; [exact P|]].
  - constructor; [|constructor]. cbn [snd]. rewrite E, len_app, L5. lia.
  - intros text start later Hs Hp F Fl Hpart. change [0xE8; 0; 0; 0; 0] with ([0xE8] ++ [0; 0; 0; 0]) in Hpart. apply part_app in Hpart. destruct Hpart as (P1 & _).
    assert (0 <= len (code s)) by (unfold len; lia).
    eapply crun_call; [| |exact C|apply crun_done].
    + rewrite Hp. eapply part_at; [exact Hs|assumption|exact P1|]. change (len [0xE8]) with 1. intros x Hx. rewrite Forall_forall in F, Fl. apply in_app_or in Hx. destruct Hx as [Hx|Hx].
      * apply in_app_or in Hx. destruct Hx as [Hx|[<-|[]]]; [left; exact (F x Hx)|right; cbn [snd]; lia].
      * right. specialize (Fl x Hx). rewrite E, len_app, L5 in Fl. lia.
    + replace (pc m + 1 - start) with (len (code s) + 1) by lia. apply find_here. eapply Forall_impl; [|exact F]. intros x Hx. cbn in Hx. lia.
Qed.

(** ** The whole code *)
Inductive cexecs : list citem -> list LowerModel.operand -> LowerModel.memory -> W -> list LowerModel.operand -> LowerModel.memory -> W -> Prop :=
| cx_nil : forall Ls a w, cexecs [] Ls a w Ls a w
| cx_ir : forall i c Ls a Ls1 b w Ls' a' w', LowerModel.step vb i Ls a = LowerModel.Next (Ls1, b) -> cexecs c Ls1 b w Ls' a' w' ->
    cexecs (CIr i :: c) Ls a w Ls' a' w'
| cx_call : forall f args vs v c Ls w w1 Ls' a' w', args_hold (parameters (sigs f)) (rev args) vs -> meaning f vs w = Some (v, w1) ->
    cexecs c (LowerModel.Value (width (result (sigs f))) (v mod 2 ^ width (result (sigs f))) :: Ls) mv w1 Ls' a' w' ->
    cexecs (CCall f (length args) (bits (result (sigs f)) / 8) :: c) (args ++ Ls) mv w Ls' a' w'.

Lemma cexecs_app : forall a b Ls x w Ls1 x1 w1 Ls2 x2 w2, cexecs a Ls x w Ls1 x1 w1 -> cexecs b Ls1 x1 w1 Ls2 x2 w2 -> cexecs (a ++ b) Ls x w Ls2 x2 w2.
Proof. intros a b Ls x w Ls1 x1 w1 Ls2 x2 w2 H. induction H; intro; cbn [app]; [assumption|eapply cx_ir; eauto|eapply cx_call; eauto]. Qed.

Lemma cexecs_irs : forall l Ls a Ls' a' w, LowerModel.exec vb l Ls a = LowerModel.Next (Ls', a') -> cexecs (map CIr l) Ls a w Ls' a' w.
Proof.
  induction l as [|i l IH]; intros Ls a Ls' a' w H; cbn [LowerModel.exec map] in *.
  - injection H as <- <-. apply cx_nil.
  - unfold LowerModel.rbind in H. destruct (LowerModel.step vb i Ls a) as [[Ls1 b]| |] eqn:Hs; try discriminate. eapply cx_ir; [exact Hs|apply IH, H].
Qed.

Lemma call_tsa : forall n size stk s r s', emit_call ss n size stk s = Done (r, s') -> tsa s <= tsa s'.
Proof.
  intros n size stk s r s' E. unfold emit_call in E. unbind E u0 s0 E0. apply assertion_inv' in E0. destruct E0 as (_ & ->).
  unbind E pl s1 E1. unbind E u2 s2 E2. unbind E sx s3 E3. unfold get_state in E3. assert (sx = s2 /\ s3 = s2) as (-> & ->) by (split; congruence). clear E3.
  unbind E u4 s4 E4. apply out_inv in E4. unbind E u5 s5 E5. unbind E idr s6 E6. apply ret_inv in E. destruct E as (_ & ->).
  pose proof (place_tsa _ _ _ _ E1). pose proof (spill_tsa _ _ _ _ _ E2). pose proof (q_tsa _ _ (quiet_loaded _ _ _ _ _ E6)).
  assert (Q5 : tsa s4 <= tsa s5).
  { clear - E5. revert s4 E5. generalize (rev pl). intro l. induction l as [|i l IH]; intros s4 E5; cbn [free_arguments] in E5.
    - apply ret_inv in E5. destruct E5 as (_ & ->). lia.
    - unbind E5 a s5' E6. unbind E5 b s6 E7. pose proof (q_tsa _ _ (quiet_allow_spilling _ _ _ _ E6)). pose proof (q_tsa _ _ (quiet_free _ _ _ _ E7)).
      specialize (IH _ E5). lia. }
  assert (Q4 : tsa s4 = tsa s2) by (subst s4; reflexivity). lia.
Qed.

Lemma calls_tsa : forall c js stk sites s r s', select_calls off vb c = Some js -> emit_calls ss (js ++ [SIr IR_return]) stk sites s = Done (r, s') -> tsa s <= tsa s'.
Proof.
  induction c as [|[i|f n size] c IH]; intros js stk sites s r s' Hs E; cbn [select_calls] in Hs.
  - injection Hs as <-. cbn [app emit_calls next_ir] in E. unbind E k s2 E2. apply ret_inv in E. destruct E as (_ & ->).
    exact (q_tsa _ _ (quiet_ir ss IR_return None stk eq_refl _ _ _ E2)).
  - destruct (select off vb i) as [j|] eqn:Hj; [|discriminate]. destruct (select_calls off vb c) as [js'|] eqn:Hjs; [|discriminate].
    injection Hs as <-. change ((SIr j :: js') ++ [SIr IR_return]) with (SIr j :: (js' ++ [SIr IR_return])) in E. cbn [emit_calls] in E. unbind E k s2 E2.
    destruct (select_no_jump vb off i j Hj) as (Nj & _). pose proof (q_tsa _ _ (quiet_ir ss _ _ _ Nj _ _ _ E2)). pose proof (IH _ _ _ _ _ _ eq_refl E). lia.
  - destruct (select_calls off vb c) as [js'|] eqn:Hjs; [|discriminate].
    injection Hs as <-. change ((SCall f n size :: js') ++ [SIr IR_return]) with (SCall f n size :: (js' ++ [SIr IR_return])) in E. cbn [emit_calls] in E. unbind E k s2 E2.
    pose proof (call_tsa _ _ _ _ _ _ E2). pose proof (IH _ _ _ _ _ _ eq_refl E). lia.
Qed.

Lemma same_locals_refl : forall M, same_locals M M.
Proof. intros M a _. reflexivity. Qed.
Lemma same_locals_trans : forall a b c, same_locals a b -> same_locals b c -> same_locals a c.
Proof. intros a b c H1 H2 x Hx. rewrite (H2 x Hx). exact (H1 x Hx). Qed.

Lemma csim : forall c js Ls Ls' mv' w w' s m M0 stk sites stk' sites' s', select_calls off vb c = Some js -> cexecs c Ls mv w Ls' mv' w' -> vars M0 -> world M0 w ->
  inv M0 s m Ls stk \/ (cinv M0 s m Ls stk /\ exists n r, c = CIr (LowerModel.Logical_not n) :: r) ->
  emit_calls ss (js ++ [SIr IR_return]) stk sites s = Done ((stk', sites'), s') -> tsa s' <= TL ->
  exists s1 m1 stk1 M1, ctr s sites m s1 sites' m1 /\ inv M1 s1 m1 Ls' stk1 /\ vars M1 /\ world M1 w' /\ same_locals M0 M1 /\
    emit_ir ss IR_return None stk1 s1 = Done (stk', s').
Proof.
  induction c as [|[i|f n size] c IH]; intros js Ls Ls' mv' w w' s m M0 stk sites stk' sites' s' Hs He HV HW HI E HT.
  - cbn in Hs. injection Hs as <-. inversion He; subst. cbn [app emit_calls next_ir] in E. unbind E stk1 s1 E1. apply ret_inv in E. destruct E as (Er & Es).
    assert (stk1 = stk' /\ sites = sites') as (-> & ->) by (split; congruence). subst s'. clear Er.
    destruct HI as [HI|(_ & n & r & X)]; [|discriminate].
    exists s, m, stk, M0. split; [apply ctr_trans, trans_refl; reflexivity|]. split; [exact HI|]. split; [exact HV|]. split; [exact HW|]. split; [apply same_locals_refl|exact E1].
  - cbn [select_calls] in Hs. destruct (select off vb i) as [j|] eqn:Hj; [|discriminate]. destruct (select_calls off vb c) as [js'|] eqn:Hjs; [|discriminate].
    injection Hs as <-. inversion He as [|? ? ? ? Ls1 mv1 ? ? ? ? Hst He'|]; subst. clear He.
    change ((SIr j :: js') ++ [SIr IR_return]) with (SIr j :: (js' ++ [SIr IR_return])) in E. cbn [emit_calls] in E. unbind E stk1 s1 E1.
    destruct (select_no_jump vb off i j Hj) as (Nj & _ & _ & Nn).
    pose proof (calls_tsa c js' _ _ _ _ _ Hjs E) as Q.
    set (next := next_ir (js' ++ [SIr IR_return])) in *.
    assert (G : mv1 = mv /\ goes ss TL regs0 vb off mv M0 next s m s1 Ls1 stk1).
    { destruct HI as [HI|(HC & n & r & Hc)].
      - exact ((step_sim ss TL regs0 H_ss H_TL H_off H_bp vb off mv M0 (vars_full M0 HV) i j next Ls Ls1 mv1 s m stk stk1 s1 Hj Hst HI E1 ltac:(lia))).
      - injection Hc as -> <-. cbn [select] in Hj. unfold for_word in Hj. destruct (_ || _); [|discriminate]. injection Hj as <-.
        pose proof HC as (L & s0 & m0 & fp & cc & k & a & b & id1 & Lr & _ & _ & _ & HL & _). rewrite HL in Hst, HC. cbn in Hst.
        destruct (LowerModel.fetch vb mv n (LowerModel.Value 32 (truth (JumpSpec.holds cc k a b)))) as [x| |] eqn:Hx in Hst; try discriminate.
        injection Hst as <- <-. split; [reflexivity|].
        assert (x = truth (JumpSpec.holds cc k a b)). { unfold LowerModel.fetch in Hx. destruct (_ =? n) in Hx; [|discriminate]. injection Hx as <-. reflexivity. } subst x.
        exact (not_cond_step ss TL regs0 H_ss H_off H_bp vb off mv M0 n next _ Lr s m stk stk1 s1 Hx HC E1 ltac:(lia)). }
    destruct G as (-> & m1 & T1 & St).
    destruct (IH js' Ls1 Ls' mv' w w' s1 m1 M0 stk1 sites stk' sites' s' eq_refl He' HV HW) as (s2 & m2 & stk2 & M1 & T2 & R2); [|exact E|exact HT|].
    { destruct St as [St|(Kn & St)]; [left; exact St|right]. split; [exact St|].
      destruct c as [|[i'|f' n' z'] c']; cbn [select_calls] in Hjs.
      - injection Hjs as <-. cbn in Kn. discriminate.
      - destruct (select off vb i') as [j'|] eqn:Hj'; [|discriminate]. destruct (select_calls off vb c'); [|discriminate]. injection Hjs as <-.
        destruct (select_no_jump vb off i' j' Hj') as (_ & N1 & _ & N2). cbn in Kn.
        destruct j'; try discriminate; [|exfalso; eapply N1; reflexivity]. destruct (N2 eq_refl) as (n & ->). exists n, c'. reflexivity.
      - destruct (select_calls off vb c'); [|discriminate]. injection Hjs as <-. cbn in Kn. discriminate. }
    exists s2, m2, stk2, M1. split; [eapply ctr_comp; [apply ctr_trans; exact T1|exact T2]|exact R2].
  - cbn [select_calls] in Hs. destruct (select_calls off vb c) as [js'|] eqn:Hjs; [|discriminate].
    injection Hs as <-. inversion He as [| |? args vs v ? Ls0 ? w1 ? ? ? Ha Hmean He']; subst. clear He.
    change ((SCall f (length args) (bits (result (sigs f)) / 8) :: js') ++ [SIr IR_return]) with (SCall f (length args) (bits (result (sigs f)) / 8) :: (js' ++ [SIr IR_return])) in E.
    cbn [emit_calls] in E. unbind E r s1 E1. destruct r as (stk1 & pos). cbn [fst snd] in E.
    pose proof (calls_tsa c js' _ _ _ _ _ Hjs E) as Q.
    destruct HI as [HI|(_ & n & r & X)]; [|discriminate].
    destruct (call_step f args vs Ls0 s m M0 w v w1 stk stk1 pos s1 HV HW HI Ha Hmean E1 ltac:(lia)) as (m1 & m2 & M1 & bs & Ec & R1 & Ep & Ecall & Epc & HV1 & HW1 & SL & HI1).
    destruct (IH js' _ Ls' mv' w1 w' s1 m2 M1 stk1 _ stk' sites' s' eq_refl He' HV1 HW1 (or_introl HI1) E HT) as (s2 & m3 & stk2 & M2 & T2 & HI2 & HV2 & HW2 & SL2 & E2).
    exists s2, m3, stk2, M2. split; [|split; [exact HI2|split; [exact HV2|split; [exact HW2|split; [eapply same_locals_trans; eassumption|exact E2]]]]].
    eapply ctr_comp; [|exact T2]. subst pos.
    set (sm := in_code (code s ++ bs) s).
    eapply ctr_comp with (b := sm) (sb := sites) (mb := m1).
    + apply ctr_trans. exists bs. split; [reflexivity|exact R1].
    + apply (ctr_call sm); [|exact Ecall|exact Epc]. unfold sm. cbn [code in_code]. rewrite Ec, app_assoc. reflexivity.
Qed.
End Call.
