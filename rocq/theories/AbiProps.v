(** C47: functions and calls follow the x64 calling convention of Windows. *)
From Coq Require Import List ZArith Bool Lia.
From Verif Require Import AbiSpec AbiModel AbiProofs.
Import ListNotations.
Open Scope Z_scope.

(** Before a call every argument is where the convention wants it, whoever compiled the function that is called: any number of
    arguments, of any types, with or without "..."; RCX holds the address of the return value if the function returns
    a struct in memory. *)
Theorem C47_caller : forall return_type parameters args return_address m,
  ordinary return_type -> Forall (fun a => ordinary (of_type a)) args ->
  let m' := prepare_call return_type parameters args return_address m in
  gpr m' rsp = gpr m rsp /\
  (hidden_pointer return_type = true -> gpr m' 1 = return_address) /\
  forall i a, nth_error args i = Some a -> contents m' (gpr m' rsp) (argument_place (hidden_pointer return_type) parameters i) = passed a.
Proof.
  intros r ps args ra m R H. destruct (prepare_spec r ps args ra m R H) as [A [B C]]. cbv zeta. rewrite A. auto.
Qed.
Print Assumptions C47_caller.

(** A function finds every parameter where the convention says its caller has put it, whoever compiled the caller: the slot the code of
    the function uses for parameter [i] is the home of the parameter and contains what was passed.  With "..." the
    homes of the further arguments, one behind the other, contain these.  The address of the return value is in the first home. *)
Theorem C47_callee : forall return_type parameters varargs m offsets m',
  ordinary return_type -> enter_function return_type parameters varargs m = (offsets, m') ->
  let hidden := hidden_pointer return_type in
  let sp := gpr m rsp + 8 in
  length offsets = length parameters /\
  (forall i, (i < length parameters)%nat -> gpr m' rbp - nth i offsets 0 = home sp hidden i) /\
  (hidden = true -> stack m' sp = gpr m 1) /\
  forall i, (i < length parameters)%nat \/ varargs = true -> stack m' (home sp hidden i) = contents m sp (argument_place hidden parameters i).
Proof.
  intros r ps va m offs m' R E. destruct (enter_spec r ps va m offs m' R E) as [_ [_ [_ [_ [_ [_ [A [B [C D]]]]]]]]]. auto.
Qed.
Print Assumptions C47_callee.

(** Both together: a call of a compiled function by compiled code.  Each parameter's slot holds the argument's value, or, where
    the function's code takes the slot for an address, the address of the argument's copy. *)
Theorem C47_call : forall return_type parameters varargs args return_address ip m offsets m',
  ordinary return_type -> Forall (fun a => ordinary (of_type a)) args -> suits parameters varargs args ->
  enter_function return_type parameters varargs (push ip (prepare_call return_type parameters args return_address m)) = (offsets, m') ->
  (hidden_pointer return_type = true -> stack m' (gpr m rsp) = return_address) /\
  (forall i t a, nth_error parameters i = Some t -> nth_error args i = Some a ->
     stack m' (gpr m' rbp - nth i offsets 0) = if is_big_function_argument t then copy a else value a) /\
  (forall i a, nth_error args i = Some a -> stack m' (home (gpr m rsp) (hidden_pointer return_type) i) = passed a).
Proof.
  intros r ps va args ra ip m offs m' R H [rest [SU SV]] E.
  destruct (prepare_spec r ps args ra m R H) as [A [B C]]. set (m1 := prepare_call r ps args ra m) in *.
  destruct (enter_spec r ps va (push ip m1) offs m' R E) as [_ [_ [_ [_ [_ [_ [L [O1 [HP AR]]]]]]]]].
  assert (SP : gpr (push ip m1) rsp + 8 = gpr m rsp).
  { change (gpr (push ip m1) rsp) with (gpr m1 rsp - 8). lia. }
  rewrite SP in O1, HP, AR.
  assert (PL : forall i, contents (push ip m1) (gpr m rsp) (argument_place (hidden_pointer r) ps i) = contents m1 (gpr m rsp) (argument_place (hidden_pointer r) ps i)).
  { intros i. unfold argument_place. set (q := if hidden_pointer r then S i else i).
    destruct q as [|[|[|[|q]]]]; destruct (is_floating (nth_error ps i)); try reflexivity;
      cbn [position_place contents]; change (stack (push ip m1)) with (fun b => if b =? gpr m1 rsp - 8 then ip else stack m1 b); cbv beta;
      rewrite (proj2 (Z.eqb_neq _ _)) by lia; reflexivity. }
  assert (ALL : forall i a, nth_error args i = Some a -> stack m' (home (gpr m rsp) (hidden_pointer r) i) = passed a).
  { intros i a I. rewrite AR.
    - rewrite PL. apply C, I.
    - destruct va; [ right; reflexivity | left ]. rewrite (SV eq_refl), app_nil_r in SU.
      rewrite <- SU, map_length. apply nth_error_Some. congruence. }
  split; [ intros Q; rewrite (HP Q); exact (B Q) |].
  split; [| exact ALL ].
  intros i t a T I. rewrite O1 by (apply nth_error_Some; congruence). rewrite (ALL i a I).
  assert (TY : of_type a = t).
  { assert (X : nth_error (map of_type args) i = Some (of_type a)) by (apply map_nth_error, I).
    rewrite SU, nth_error_app1, T in X by (apply nth_error_Some; congruence). congruence. }
  unfold passed, is_big_function_argument. rewrite reference, TY; [ reflexivity |].
  rewrite <- TY. rewrite Forall_forall in H. apply H. eapply nth_error_In. exact I.
Qed.
Print Assumptions C47_call.

(** The stack frame.  If RSP was a multiple of 16 before the call of the function, as the convention asks, it is one at every call
    the function makes.  The slots of the arguments of these calls (at least four, as the home space demands) lie below all
    temporaries; temporaries lie below the declarations and do not overlap; all of it lies below the saved registers; a temporary has the
    alignment its type needs. *)
Theorem C47_frame : forall return_type parameters varargs m offsets m1 declarations temporaries arguments,
  ordinary return_type -> enter_function return_type parameters varargs m = (offsets, m1) ->
  gpr m rsp mod 16 = 8 -> 0 <= declarations -> 0 <= temporaries -> 4 <= arguments ->
  let m' := make_frame declarations temporaries arguments m1 in
  gpr m' rsp mod 16 = 0 /\
  gpr m' rsp + 8 * arguments <= gpr m' rbp - declarations /\ gpr m' rbp + 24 = gpr m rsp /\
  forall allocated size alignment allocated' distance,
    0 <= allocated -> 0 < size -> In alignment [1; 2; 4; 8; 16] ->
    allocate_temporary declarations allocated size alignment = (allocated', distance) -> allocated' <= temporaries ->
    gpr m' rsp + 8 * arguments <= gpr m' rbp - distance /\
    gpr m' rbp - distance + size <= gpr m' rbp - declarations_size declarations - allocated /\
    gpr m' rbp - distance = gpr m' rbp - declarations_size declarations - allocated' /\
    declarations <= declarations_size declarations /\
    (size mod alignment = 0 -> (gpr m' rbp - distance) mod alignment = 0).
Proof.
  intros r ps va m offs m1 d t n R E AL D T N.
  destruct (enter_spec r ps va m offs m1 R E) as [S1 [B1 _]].
  destruct (needed_spec d t n) as [NB NM]. destruct (align_bounds d 16 ltac:(lia)) as [DB DM]. fold (declarations_size d) in DB, DM.
  cbv zeta. unfold make_frame.
  change (gpr (set_gpr rsp (gpr m1 rsp - stack_memory_needed d t n) m1) rsp) with (gpr m1 rsp - stack_memory_needed d t n).
  change (gpr (set_gpr rsp (gpr m1 rsp - stack_memory_needed d t n) m1) rbp) with (gpr m1 rbp).
  rewrite S1, B1. split; [ lia |]. split; [ lia |]. split; [ lia |].
  intros al size a al' dist A P I F LE.
  destruct (temporary_spec d al size a al' dist D A P I F) as [X [-> Y]].
  split; [ lia |]. split; [ lia |]. split; [ lia |]. split; [ lia |]. intros Q. specialize (Y Q).
  cbn in I. destruct I as [<- | [<- | [<- | [<- | [<- | []]]]]]; lia.
Qed.
Print Assumptions C47_frame.

(** Returning: whatever the function has done to the registers, if RBP and the memory from there to the return address are as the entry of the function
    left them, it returns to its caller with the registers RBP, RSI and RDI and the stack pointer restored. *)
Theorem C47_return : forall return_type parameters varargs m offsets m1 m2,
  ordinary return_type -> enter_function return_type parameters varargs m = (offsets, m1) ->
  gpr m2 rbp = gpr m1 rbp -> (forall a, gpr m1 rbp <= a <= gpr m rsp -> stack m2 a = stack m1 a) ->
  exists m', leave_function m2 = (stack m (gpr m rsp), m') /\
    gpr m' rsp = gpr m rsp + 8 /\ gpr m' rbp = gpr m rbp /\ gpr m' rsi = gpr m rsi /\ gpr m' rdi = gpr m rdi.
Proof.
  intros r ps va m offs m1 m2 R E B ST.
  destruct (enter_spec r ps va m offs m1 R E) as [_ [B1 [V1 [V2 [V3 [V4 _]]]]]].
  destruct (leave_spec m2) as [L [L1 [L2 [L3 L4]]]]. exists (snd (leave_function m2)).
  rewrite B, B1 in *.
  replace (gpr m rsp - 24 + 24) with (gpr m rsp) in L by lia.
  replace (gpr m rsp - 24 + 8) with (gpr m rsp - 16) in L3 by lia.
  replace (gpr m rsp - 24 + 16) with (gpr m rsp - 8) in L4 by lia.
  rewrite ST in L, L2, L3, L4 by lia.
  split; [ rewrite V4 in L; exact L |]. split; [ lia |]. split; [ congruence |]. split; congruence.
Qed.
Print Assumptions C47_return.

(** The convention wants the copy of a struct that is passed by reference "16-byte aligned": it is not; the temporary is allocated with an
    alignment of 16, but it is the end of a struct of 24 bytes that is then aligned. *)
Theorem C47_copy_alignment_refuted :
  exists declarations allocated size m offsets m1 allocated' distance,
    by_reference (Aggregate size) = true /\
    enter_function (Integer 4) [] false m = (offsets, m1) /\ gpr m rsp mod 16 = 8 /\
    allocate_temporary declarations allocated size 16 = (allocated', distance) /\
    (gpr m1 rbp - distance) mod 16 <> 0.
Proof.
  exists 0, 0, 24, (mkmachine (fun _ => 1000) (fun _ => 0) (fun _ => 0)).
  do 2 eexists. exists 24, 24. split; [ reflexivity |]. split; [ reflexivity |]. split; [ reflexivity |]. split; [ reflexivity |]. discriminate.
Qed.
Print Assumptions C47_copy_alignment_refuted.

(** A struct of 12 bytes as the result, and a call with an int, a double, a struct of 3 bytes, a float and a long long: the places are RDX, XMM2,
    R9, [RSP + 32] and [RSP + 40]. *)
Definition example_parameters : list type := [Integer 4; Double; Aggregate 3; Float; Integer 8].
Definition example_arguments : list argument :=
  [mkargument (Integer 4) 7 0; mkargument Double 15 0; mkargument (Aggregate 3) 9 5000; mkargument Float 21 0; mkargument (Integer 8) 33 0].

Example C47_places : map (argument_place (hidden_pointer (Aggregate 12)) example_parameters) [0; 1; 2; 3; 4]%nat
  = [In_register 2; In_xmm 2; In_register 9; On_stack 32; On_stack 40].
Proof. reflexivity. Qed.

Example C47_call_case : ordinary (Aggregate 12) /\ Forall (fun a => ordinary (of_type a)) example_arguments /\ suits example_parameters false example_arguments /\
  hidden_pointer (Aggregate 12) = true /\ map passed example_arguments = [7; 15; 5000; 21; 33].
Proof.
  split; [ reflexivity |]. split; [ unfold example_arguments; repeat (apply Forall_cons; [ cbn; auto 10 |]); [ reflexivity .. | apply Forall_nil ] |]. split; [ exists []; split; [ reflexivity | reflexivity ] | split; reflexivity ].
Qed.

(** [printf("%d %f", 1, 2.0)]: the format in RCX, the int in RDX, the double in R8. *)
Example C47_varargs_case :
  let args := [mkargument (Integer 8) 4000 0; mkargument (Integer 4) 1 0; mkargument Double 2 0] in
  suits [Integer 8] true args /\ map (argument_place false [Integer 8]) [0; 1; 2]%nat = [In_register 1; In_register 2; In_register 8].
Proof. split; [ exists [Integer 4; Double]; split; [ reflexivity | discriminate ] | reflexivity ]. Qed.

Definition example_entry : machine := mkmachine (fun r => if r =? rsp then 10008 else r) (fun r => 100 + r) (fun a => a).

Example C47_frame_case : gpr example_entry rsp mod 16 = 8 /\
  stack_memory_needed 20 24 6 = 144 /\ allocate_temporary 20 0 24 8 = (24, 56).
Proof. repeat split. Qed.
