(** C17: code is generated for every integer expression, and it computes the value. *)
From Coq Require Import List ZArith Lia.
From Verif Require Import Base IntTypes CSpec X64Machine.
From Verif Require LowerSpec LowerModel LowerProps EmitModel SelectModel EmitTotal TotalLower EmitProps.
Import ListNotations LowerSpec EmitProps TotalLower.

(** Whenever the parser accepts the expression, the code generator finishes: it runs out of no
    register, takes no operand of a wrong size and frees everything it took.  The variables lie
    within the reach of a 32-bit displacement, and so do the temporaries: [nodes e] counts the
    constants, variables and operators of the expression, and 384 bytes for each are enough. *)
Theorem C17_code_is_generated : forall frame offset ty e q,
  LowerModel.lower ty e = Done q ->
  (forall x, - 2 ^ 31 < offset x <= 2 ^ 31) ->
  0 <= frame -> frame + (384 * Z.of_nat (nodes e) + 32) <= 2 ^ 31 ->
  exists code temporaries,
    SelectModel.compile_return frame offset ty e = Done (code, temporaries) /\
    0 <= temporaries <= 384 * Z.of_nat (nodes e) + 32.
Proof.
  intros frame offset ty e q H Ho Hf Hb. apply (compiled offset ty) with (q := q); [|exact H|exact Hf|lia].
  intro x. specialize (Ho x). change (2 ^ 31) with 2147483648 in Ho. unfold EmitTotal.off_ok. lia.
Qed.
Print Assumptions C17_code_is_generated.

(** An expression that has a value in C and no comma operator with a constant on the right: code is
    generated, and the machine that runs it ends behind it with the value in RAX; the registers a
    function must keep and the memory outside the temporaries are unchanged. *)
Theorem C17_compiled_partial : forall frame room offset ty env e t v m,
  entered frame room offset ty env m -> literals_ok e -> no_constant_comma e -> veval ty env e = Some (t, v) ->
  384 * Z.of_nat (nodes e) + 32 <= room ->
  exists code temporaries m',
    SelectModel.compile_return frame offset ty e = Done (code, temporaries) /\ temporaries <= room /\
    pc m' = pc m + Z.of_nat (length code) /\
    (forall text, at_code text (pc m) code -> steps text m m') /\
    regs m' 0 mod 2 ^ width t = v mod 2 ^ width t /\
    (forall r, ~ caller_saved r -> regs m' r = regs m r) /\
    (forall a, ~ (regs m 5 - frame - room <= a < regs m 5 - frame) -> mem m' a = mem m a).
Proof.
  intros frame room offset ty env e t v m En LO NC Ev Hr.
  destruct (LowerProps.C44_lowering_partial ty env (fun x => env x mod 2 ^ width (ty x)) e t v) as (q & _ & Lq & _); auto.
  { intro x. split; [apply (e_values _ _ _ _ _ _ En x)|reflexivity]. }
  pose proof (e_frame _ _ _ _ _ _ En) as Hf. pose proof (e_inside _ _ _ _ _ _ En) as Hi.
  destruct (C17_code_is_generated frame offset ty e q Lq) as (code & tmp & Hc & Ht); [|lia|lia|].
  { intro x. specialize (Hi x). assert (0 <= width (ty x) / 8) by (destruct (ty x); vm_compute; discriminate). lia. }
  destruct (C17_return_partial frame room offset ty env e t v m code tmp En LO NC Ev Hc ltac:(lia)) as (m' & R).
  exists code, tmp, m'. split; [exact Hc|]. split; [lia|exact R].
Qed.
Print Assumptions C17_compiled_partial.

(** The machine of EmitProps.v with room for nine nodes: [return c < (u - 7) * 3 >> 2;]. *)
Example C17_compiled_applies :
  entered 8 3488 ex_offset LowerProps.ex_ty LowerProps.ex_env (mkmachine (fun r => if r =? 5 then 4096 else 0) (mem ex_machine) None 0) /\
  literals_ok LowerProps.ex_expr /\ no_constant_comma LowerProps.ex_expr /\
  veval LowerProps.ex_ty LowerProps.ex_env LowerProps.ex_expr = Some (S32, 1) /\
  384 * Z.of_nat (nodes LowerProps.ex_expr) + 32 <= 3488 /\
  (exists q, LowerModel.lower LowerProps.ex_ty LowerProps.ex_expr = Done q) /\
  (forall x, - 2 ^ 31 < ex_offset x <= 2 ^ 31).
Proof.
  destruct C17_return_applies as ([Er _ Ei Ev] & LO & NC & V & _).
  split; [split; [|cbn; lia|exact Ei|exact Ev]|].
  { exact Er. }
  split; [exact LO|]. split; [exact NC|]. split; [exact V|]. split; [vm_compute; discriminate|].
  split; [eexists; vm_compute; reflexivity|]. intros [|[|x]]; vm_compute; split; congruence.
Qed.
