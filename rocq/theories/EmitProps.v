(** C17: the machine code of [return e;] computes the value of [e]. *)
From Coq Require Import List ZArith Lia.
From Verif Require Import Base IntTypes CSpec X64Machine.
From Verif Require LowerSpec LowerModel LowerProofs LowerProps EmitModel SelectModel StepProofs EmitSim EmitExpr.
Import ListNotations LowerSpec.

(** The machine at the start of the body: [frame] bytes of declarations lie below RBP (register 5), then [room] bytes for
    temporaries; variable [x] starts [offset x] bytes below RBP and holds its value. *)
Record entered (frame room : Z) (offset : nat -> Z) (ty : typing) (env : values) (m : machine) : Prop := {
  e_registers : forall r, 0 <= regs m r < 2 ^ 64;
  e_frame : 0 <= frame /\ 0 <= room /\ frame + room <= 2 ^ 31 /\ frame + room <= regs m 5;
  e_inside : forall x, width (ty x) / 8 <= offset x <= frame;
  e_values : forall x, object_value (ty x) (env x) /\
    load (Z.to_nat (width (ty x) / 8)) (mem m) (regs m 5 - offset x) = env x mod 2 ^ width (ty x) }.

(** The registers a function may change (RAX, RCX, RDX, R8 to R11). *)
Definition caller_saved (r : Z) : Prop := r = 0 \/ r = 1 \/ r = 2 \/ 8 <= r <= 11.

Lemma width_bits : forall t, width t = bits t.
Proof. intros []; reflexivity. Qed.

Theorem C17_return_partial : forall frame room offset ty env e t v m code temporaries,
  entered frame room offset ty env m -> literals_ok e -> no_constant_comma e -> veval ty env e = Some (t, v) ->
  SelectModel.compile_return frame offset ty e = Done (code, temporaries) -> temporaries <= room ->
  exists m',
    pc m' = pc m + Z.of_nat (length code) /\
    (forall text, at_code text (pc m) code -> steps text m m') /\
    regs m' 0 mod 2 ^ width t = v mod 2 ^ width t /\
    (forall r, ~ caller_saved r -> regs m' r = regs m r) /\
    (forall a, ~ (regs m 5 - frame - room <= a < regs m 5 - frame) -> mem m' a = mem m a).
Proof.
  intros ss TL off ty env e t v m code tsa [Hr (Hs & Ht & Hb & Hp) Hi Hv] LO NC Ev Hc Hl.
  set (mv := fun x => env x mod 2 ^ width (ty x)).
  destruct (LowerProps.C44_lowering_partial ty env mv e t v ltac:(intro x; split; [apply Hv|reflexivity]) LO NC Ev) as (q & r & Lq & _ & Ex & Fr).
  unfold SelectModel.compile_return in Hc. rewrite Lq in Hc. cbn [obind] in Hc.
  destruct (SelectModel.select_all off (fun x => bits (ty x)) (LowerModel.emit q)) as [js|] eqn:Hjs; [|discriminate].
  assert (Hvars : forall x, StepProofs.is_size_P (bits (ty x) / 8) /\ bits (ty x) = 8 * (bits (ty x) / 8) /\
    EmitSim.outside ss TL (regs m) (regs m 5 + - off x) (bits (ty x) / 8) /\
    load (Z.to_nat (bits (ty x) / 8)) (mem m) (wrapu 64 (regs m 5 + - off x)) = mv x).
  { intro x. assert (PB : StepProofs.is_size_P (bits (ty x) / 8) /\ bits (ty x) = 8 * (bits (ty x) / 8)) by (destruct (ty x); split; vm_compute; tauto). destruct PB as (P & B). split; [exact P|]. split; [exact B|].
    pose proof (Hi x) as Hx. rewrite width_bits in Hx. pose proof (Hr 5) as R5.
    assert (0 < bits (ty x) / 8) by (unfold StepProofs.is_size_P in P; lia).
    split.
    - intros i Hi0. unfold EmitSim.spill_area, wrapu. rewrite Z.mod_small by lia. lia.
    - unfold wrapu. rewrite Z.mod_small by lia. rewrite <- width_bits. apply (Hv x). }
  destruct (EmitExpr.body_sim ss TL (regs m) Hs Ht Hb ltac:(split; [exact Hp|apply Hr]) (fun x => bits (ty x)) off mv (mem m)
    Hvars (LowerModel.emit q) js m code tsa r mv Hjs (Ex []) Hc Hl ltac:(reflexivity) Hr eq_refl) as (m' & (Pc & St) & V & Rg & Mm).
  exists m'. split; [exact Pc|]. split; [exact St|]. split; [|split; [|exact Mm]].
  - unfold LowerModel.fetch in Fr. destruct (_ =? width t) eqn:X in Fr; [|discriminate]. apply Z.eqb_eq in X. injection Fr as Fr.
    unfold LowerProps.sizes in X. rewrite X in V. rewrite <- Fr. exact V.
  - intros q0 Hq. apply Rg. intro X. apply Hq. unfold caller_saved. cbn in X. lia.
Qed.
Print Assumptions C17_return_partial.

(** [return c < (u - 7) * 3 >> 2;] with [signed char c] one byte and [unsigned short u] four bytes below RBP; the
    result 1 passes through two temporaries. *)
Definition ex_offset (x : nat) : Z := match x with O => 1 | S O => 4 | _ => 8 end.
Definition ex_machine : machine :=
  mkmachine (fun r => if r =? 5 then 4096 else 0) (fun a => if a =? 4095 then 251 else if a =? 4092 then 9 else 0) None 0.

Example C17_return_applies :
  entered 8 8 ex_offset LowerProps.ex_ty LowerProps.ex_env ex_machine /\
  literals_ok LowerProps.ex_expr /\ no_constant_comma LowerProps.ex_expr /\
  veval LowerProps.ex_ty LowerProps.ex_env LowerProps.ex_expr = Some (S32, 1) /\
  SelectModel.compile_return 8 ex_offset LowerProps.ex_ty LowerProps.ex_expr =
    Done ([0x0F; 0xB7; 0x55; 0xFC;             (* movzx edx, word ptr [rbp-4] *)
           0x81; 0xEA; 7; 0; 0; 0;             (* sub edx, 7 *)
           0x89; 0x55; 0xF4; 0x8B; 0x45; 0xF4; (* mov [rbp-12], edx; mov eax, [rbp-12] *)
           0x89; 0x45; 0xF0; 0x99;             (* mov [rbp-16], eax; cdq *)
           0x41; 0xB8; 3; 0; 0; 0;             (* mov r8d, 3 *)
           0x41; 0xF7; 0xE8; 0xC1; 0xF8; 2;    (* imul r8d; sar eax, 2 *)
           0x44; 0x0F; 0xBE; 0x4D; 0xFF;       (* movsx r9d, byte ptr [rbp-1] *)
           0x44; 0x3B; 0xC8;                   (* cmp r9d, eax *)
           0x0F; 0x9C; 0xC0; 0x0F; 0xB6; 0xC0  (* setl al; movzx eax, al *)], 8).
Proof.
  destruct LowerProps.C44_lowering_applies as (_ & LO & NC & V & _).
  split; [|split; [exact LO|split; [exact NC|split; [exact V|vm_compute; reflexivity]]]].
  split.
  - intro r. cbn. destruct (r =? 5); lia.
  - cbn. lia.
  - intros [|[|x]]; cbn; vm_compute; split; discriminate.
  - intro x. split; [exact (proj1 (LowerProps.ex_holds x))|]. destruct x as [|[|x]]; vm_compute; reflexivity.
Qed.
