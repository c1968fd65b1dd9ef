(** C48: the machine code of [return e;], where [e] is made of calls, calls the functions as [e] says. *)
From Coq Require Import List ZArith Lia Bool.
From Verif Require Import Base IntTypes CSpec X64Machine CallSpec.
From Verif Require IntProofs LowerSpec LowerModel LowerProofs EmitModel SelectModel StepProofs EmitSim EmitBasics EmitExpr EmitProps CallModel CallProofs CallLower.
Import ListNotations LowerSpec.
Open Scope Z_scope.

Theorem C48_calls_partial : forall (W : Type) sigs meaning world callee frame room offset ty env e t v (w w' : W) m code temporaries sites,
  EmitProps.entered frame room offset ty env m ->
  plain_parts (fun e => literals_ok e /\ no_constant_comma e) e ->
  results_in_type sigs meaning ->
  conforms sigs meaning world (regs m) (regs m 5 - frame - room) (regs m 5) callee ->
  independent world (regs m 5 - frame - room) (regs m 5) ->
  world (mem m) w ->
  ceval W sigs meaning ty env w e = Some (t, v, w') ->
  CallModel.compile_calls sigs frame offset ty e = Done (code, temporaries, sites) -> temporaries <= room ->
  exists m',
    pc m' = pc m + Z.of_nat (length code) /\
    (forall text, linked text (pc m) code sites -> crun text (pc m) sites callee m m') /\
    regs m' 0 mod 2 ^ width t = v mod 2 ^ width t /\
    (forall r, ~ may_change r -> regs m' r = regs m r) /\
    (forall a, regs m 5 - frame <= a < regs m 5 -> mem m' a = mem m a) /\
    world (mem m') w'.
Proof.
  intros W sigs meaning world callee ss TL off ty env e t v w w' m code tsa sites [Hr (Hs & Ht & Hb & Hp) Hi Hv] PP RT HC HI HW Ev Hc Hl.
  set (mv := fun x => env x mod 2 ^ width (ty x)).
  assert (HH : LowerSpec.holds ty env mv) by (intro x; split; [apply Hv|reflexivity]).
  destruct (CallLower.all_lowers W sigs meaning ty env mv HH RT e None t v w w' PP Ev) as (cs & Lq & _ & c & (Y1 & Y2) & X).
  unfold CallModel.compile_calls in Hc. rewrite Lq in Hc. cbn [obind fst] in Hc.
  destruct (CallModel.select_calls off (fun x => bits (ty x)) cs) as [js|] eqn:Hjs; [|discriminate].
  destruct (CallModel.emit_calls ss (js ++ [CallModel.SIr EmitModel.IR_return]) [] [] EmitModel.initial) as [[[stf sitesf] sf]| |] eqn:E; try discriminate.
  cbn [obind] in Hc. destruct stf; try discriminate. destruct (forallb _ EmitModel.volatile) in Hc; try discriminate.
  assert (EmitModel.code sf = code /\ EmitModel.tsa sf = tsa /\ sitesf = sites) as (Ec & Et & ->) by (repeat split; congruence). clear Hc.
  assert (Hsize : forall x, StepProofs.is_size_P (bits (ty x) / 8) /\ bits (ty x) = 8 * (bits (ty x) / 8) /\ bits (ty x) / 8 <= off x <= ss).
  { intro x. assert (PB : StepProofs.is_size_P (bits (ty x) / 8) /\ bits (ty x) = 8 * (bits (ty x) / 8)) by (destruct (ty x); split; vm_compute; tauto).
    destruct PB as (P & B). split; [exact P|]. split; [exact B|]. rewrite <- EmitProps.width_bits. apply Hi. }
  assert (HV : CallProofs.vars (regs m) (fun x => bits (ty x)) off mv (mem m)).
  { intro x. pose proof (Hi x) as Hx. pose proof (Hr 5) as R5. unfold wrapu. rewrite Z.mod_small.
    - rewrite <- EmitProps.width_bits. apply (Hv x).
    - destruct (Hsize x) as (P & _). rewrite <- EmitProps.width_bits in P. unfold StepProofs.is_size_P in P. lia. }
  assert (W0 : EmitSim.sim ss TL (regs m) EmitModel.initial m (mem m) []).
  { split; [|constructor|constructor]. split; cbn.
    - eexists. split; [reflexivity|]. split; reflexivity.
    - discriminate.
    - intros [|[|i]] l H; try discriminate. injection H as <-. cbn. lia.
    - intros q _. reflexivity.
    - exact Hr.
    - lia.
    - intros a _. reflexivity. }
  assert (I0 : EmitExpr.inv ss TL (regs m) (fun x => bits (ty x)) off mv (mem m) EmitModel.initial m [] []).
  { exists []. split; [exact W0|]. split; [constructor|]. split; [reflexivity|constructor]. }
  assert (H_bp : ss + TL <= regs m 5 < 2 ^ 64) by (split; [exact Hp|apply Hr]).
  destruct (CallProofs.csim ss TL (regs m) Hs Ht Hb H_bp (fun x => bits (ty x)) off mv Hsize W sigs meaning world callee HC HI
    cs js [] [c] mv w w' EmitModel.initial m (mem m) [] [] [] sites sf Hjs (X []) HV HW (or_introl I0) E ltac:(lia))
    as (s1 & m1 & stk1 & M1 & T1 & I1 & HV1 & HW1 & SL & E1).
  destruct (EmitExpr.return_step ss TL (regs m) Hs Ht Hb H_bp (fun x => bits (ty x)) off mv M1 s1 m1 c stk1 [] sf I1 E1 ltac:(lia)) as (m2 & T2 & S2 & V2).
  pose proof (CallProofs.ctr_comp (regs m) callee _ _ _ _ _ _ _ _ _ T1 (CallProofs.ctr_trans (regs m) callee _ sites _ _ _ T2)) as (bs & new & Eb & En & Fn & Pc & R).
  cbn in Eb, En. rewrite Ec in Eb. subst bs. subst new.
  destruct (EmitSim.sim_wf _ _ _ _ _ _ _ S2) as [_ _ _ Wr _ _ Wm].
  exists m2. split; [exact Pc|]. split; [|split; [|split; [|split]]].
  - intros text (L0 & L). specialize (R text (pc m) [] L0). rewrite app_nil_r in R. apply R.
    + cbn. lia.
    + constructor.
    + constructor.
    + intros i Hi0 Hn. cbn in Hn |- *. apply L; [exact Hi0|]. intros f p Hp0. exact (Hn (f, p) Hp0).
  - rewrite Y1, Y2 in V2. exact V2.
  - intros q Hq. apply Wr. intro Z. apply Hq. unfold may_change. cbn in Z. lia.
  - intros a Ha. rewrite Wm; [apply SL, Ha|]. unfold EmitSim.spill_area. lia.
  - eapply HI; [|exact HW1]. intros a Ha. apply Wm. unfold EmitSim.spill_area. lia.
Qed.
Print Assumptions C48_calls_partial.

(** Calls with a wrong number of arguments are not compiled. *)
Theorem C48_argument_count : forall sigs frame offset ty e r,
  CallModel.compile_calls sigs frame offset ty e = Done r -> arguments_match sigs e.
Proof.
  intros sigs frame offset ty e r H. unfold CallModel.compile_calls in H.
  destruct (CallModel.lower_call sigs ty None e) as [q| |] eqn:E; cbn [obind] in H; try discriminate.
  eapply CallLower.lower_counted, E.
Qed.
Print Assumptions C48_argument_count.

(** A CALL is not an instruction of the machine: where one starts, only the call is possible. *)
Lemma call_is_no_step : forall text m, at_code text (pc m) [0xE8] -> step text m = None.
Proof.
  intros text m (P & rest & E). unfold step. destruct (pc m <? 0); [reflexivity|]. rewrite E. cbn [app].
  assert (D : X64Decode.decode_head (0xE8 :: rest) = Some (X64Decode.Head [] false false 0 0 0 None 0 0xE8, rest)) by reflexivity.
  unfold X64Decode.decode_insn. rewrite D.
  cbn [X64Decode.h_w X64Decode.h_legacy X64Decode.h_vex X64Decode.h_map X64Decode.h_opc X64Decode.h_r X64Decode.h_x X64Decode.h_b X64Decode.h_rex].
  change (plain_prefixes []) with true. cbn [negb Z.eqb Z.leb Z.compare andb Pos.eqb Pos.compare Pos.compare_cont].
  destruct (X64Decode.decode_modrm 0 0 0 rest) as [[[reg rm] r]|]; [|reflexivity].
  destruct (X64Decode.take_disp _ r) as [[imm r']|]; [|reflexivity].
  generalize (Z.of_nat (length text) - Z.of_nat (length r')). intro next. reflexivity.
Qed.

(** Every other run from the same start passes through the final machine, or has not got there yet. *)
Theorem C48_runs_agree : forall text start sites callee m a b,
  crun text start sites callee m a -> crun text start sites callee m b ->
  crun text start sites callee a b \/ crun text start sites callee b a.
Proof.
  intros text start sites callee m a b H. revert b. induction H as [m|m m1 m2 S1 H IH|m m1 m2 f A1 C1 E1 H IH]; intros b Hb.
  - left. exact Hb.
  - inversion Hb as [|? x ? S2 Hb'|? x ? g A2 C2 E2 Hb']; subst.
    + right. eapply crun_step; eassumption.
    + rewrite S1 in S2. injection S2 as <-. exact (IH b Hb').
    + rewrite (call_is_no_step _ _ A2) in S1. discriminate.
  - inversion Hb as [|? x ? S2 Hb'|? x ? g A2 C2 E2 Hb']; subst.
    + right. eapply crun_call; eassumption.
    + rewrite (call_is_no_step _ _ A1) in S2. discriminate.
    + rewrite C1 in C2. injection C2 as <-. rewrite E1 in E2. injection E2 as <-. exact (IH b Hb').
Qed.
Print Assumptions C48_runs_agree.

(** [return f(x + y, g(f(x, 5, h())), y);] with [int f(int, long long, unsigned char)], [long long g(unsigned short)] and
    [unsigned char h(void)].  Each function adds up its arguments with weights and what it finds at the address 5000, then counts there. *)
Definition ex_sigs (f : nat) : signature :=
  match f with O => mksignature [S32; S64; U8] S32 | S O => mksignature [U16] S64 | _ => mksignature [] U8 end.
Definition ex_expr : cexpr :=
  Call 0 [Plain (VArith OAdd (VVar 0) (VVar 1)); Call 1 [Call 0 [Plain (VVar 0); Plain (VLit S32 5); Call 2 []]]; Plain (VVar 1)].
Fixpoint ex_total (ps : list ity) (vs : list Z) : Z :=
  match ps, vs with p :: ps, v :: vs => v mod 2 ^ width p + 3 * ex_total ps vs | _, _ => 0 end.
Fixpoint ex_read (rs : list Z) (ps : list ity) (m : machine) : Z :=
  match rs, ps with r :: rs, p :: ps => regs m r mod 2 ^ width p + 3 * ex_read rs ps m | _, _ => 0 end.
Definition ex_meaning (f : nat) (vs : list Z) (w : Z) : option (Z * Z) :=
  Some (convert (result (ex_sigs f)) (ex_total (parameters (ex_sigs f)) vs + w), w + 1).
Definition ex_world (M : Z -> Z) (w : Z) : Prop := M 5000 = w.
(** The registers it may change are destroyed. *)
Definition ex_callee (f : nat) (m : machine) : option machine :=
  Some (mkmachine (fun r => if r =? 0 then convert (result (ex_sigs f)) (ex_read [1; 2; 8; 9] (parameters (ex_sigs f)) m + mem m 5000) mod 2 ^ 64
                            else if (r =? 1) || (r =? 2) || ((8 <=? r) && (r <=? 11)) then 7 else regs m r)
    (fun a => if a =? 5000 then mem m 5000 + 1 else mem m a) None (pc m + 5)).
Definition ex_offset (x : nat) : Z := match x with O => 4 | _ => 8 end.
Definition ex_ty : typing := fun _ => S32.
Definition ex_env : values := fun x => match x with O => 10 | _ => 200 end.
Definition ex_machine : machine :=
  mkmachine (fun r => if r =? 5 then 4096 else 0) (fun a => if a =? 4092 then 10 else if a =? 4088 then 200 else 0) None 0.

Lemma ex_same : forall rs ps vs m, registers_hold rs ps vs m -> ex_read rs ps m = ex_total ps vs.
Proof.
  induction rs as [|r rs IH]; intros [|p ps] [|v vs] m H; cbn [registers_hold ex_read ex_total] in *; try reflexivity; try contradiction.
  destruct H as (-> & H). rewrite (IH _ _ _ H). reflexivity.
Qed.

Example C48_calls_applies :
  EmitProps.entered 8 24 ex_offset ex_ty ex_env ex_machine /\
  plain_parts (fun e => literals_ok e /\ no_constant_comma e) ex_expr /\
  results_in_type ex_sigs ex_meaning /\
  conforms ex_sigs ex_meaning ex_world (regs ex_machine) (4096 - 8 - 24) 4096 ex_callee /\
  independent ex_world (4096 - 8 - 24) 4096 /\ ex_world (mem ex_machine) 0 /\
  ceval Z ex_sigs ex_meaning ex_ty ex_env 0 ex_expr = Some (S32, 2097, 4) /\
  CallModel.compile_calls ex_sigs 8 ex_offset ex_ty ex_expr =
    Done ([0x8B; 0x55; 0xFC; 0x03; 0x55; 0xF8;          (* mov edx, [rbp-4]; add edx, [rbp-8] *)
           0x89; 0x55; 0xF4;                            (* mov [rbp-12], edx *)
           0xE8; 0; 0; 0; 0;                            (* call h *)
           0x44; 0x8A; 0xC0;                            (* mov r8b, al *)
           0x48; 0xBA; 5; 0; 0; 0; 0; 0; 0; 0;          (* mov rdx, 5 *)
           0x8B; 0x4D; 0xFC;                            (* mov ecx, [rbp-4] *)
           0xE8; 0; 0; 0; 0;                            (* call f *)
           0x66; 0x8B; 0xC8;                            (* mov cx, ax *)
           0xE8; 0; 0; 0; 0;                            (* call g *)
           0x44; 0x8A; 0x45; 0xF8;                      (* mov r8b, [rbp-8] *)
           0x48; 0x8B; 0xD0;                            (* mov rdx, rax *)
           0x8B; 0x4D; 0xF4;                            (* mov ecx, [rbp-12] *)
           0xE8; 0; 0; 0; 0                             (* call f *)], 4, [(2%nat, 10); (0%nat, 31); (1%nat, 39); (0%nat, 54)]).
Proof.
  split; [|split; [|split; [|split; [|split; [|split; [reflexivity|split; [vm_compute; reflexivity|]]]]]]].
  - split.
    + intro r. cbn. destruct (r =? 5); lia.
    + cbn. lia.
    + intros [|x]; cbn; lia.
    + intros [|x]; (split; [split; [vm_compute; split; discriminate|discriminate]|vm_compute; reflexivity]).
  - vm_compute. intuition (try discriminate).
  - intros f vs w v w' H. unfold ex_meaning in H. assert (v = convert (result (ex_sigs f)) (ex_total (parameters (ex_sigs f)) vs + w)) as -> by congruence.
    apply LowerProofs.convert_object.
  - intros f vs w v w' m Hw _ HW Hm Hp. unfold ex_meaning in Hm. unfold ex_world in *.
    assert (v = convert (result (ex_sigs f)) (ex_total (parameters (ex_sigs f)) vs + w) /\ w' = w + 1) as (-> & ->) by (split; congruence).
    eexists. split; [reflexivity|]. cbn [pc regs mem]. split; [reflexivity|]. unfold passed in Hp. rewrite (ex_same _ _ _ _ Hp), HW.
    split; [|split; [|split; [|split]]].
    + apply IntProofs.mod_mod_pow. destruct (result (ex_sigs f)); cbn; lia.
    + intros r Hr. unfold may_change in Hr. destruct (Z.eqb_spec r 0); [lia|]. destruct (Z.eqb_spec r 1); [lia|]. destruct (Z.eqb_spec r 2); [lia|].
      destruct (Z.leb_spec 8 r), (Z.leb_spec r 11); cbn; try reflexivity. lia.
    + intro r. destruct (r =? 0); [apply Z.mod_pos_bound; reflexivity|]. destruct (_ || _); [lia|apply Hw].
    + intros a Ha. destruct (Z.eqb_spec a 5000); [lia|reflexivity].
    + reflexivity.
  - intros M M' w H HW. unfold ex_world in *. rewrite H by lia. exact HW.
  - vm_compute. reflexivity.
Qed.
