(** C45: the intermediate code generated for the statements of a function.  C's side is StmtSpec.v (and, for
    expressions, BranchSpec.v); code is run by [msteps] of StmtModel.v. *)
From Coq Require Import List ZArith Bool Lia.
From Verif Require Import Base IntTypes CSpec IntModel IntProofs LowerSpec LowerModel LowerProofs LowerProps
                          BranchSpec BranchModel BranchProofs BranchRun StmtSpec StmtModel StmtShape StmtProofs.
Import ListNotations.
Open Scope Z_scope.

Definition has_value (rt : option ity) : bool := match rt with Some _ => true | None => false end.

(** The function of C started with the values [env]; its code started with the memory [m]. *)
Definition c_run ty rt is_main body n env : progress := csteps ty rt body is_main n (Running body Kstop env).
Definition code_run first ty rt (c : counters) code n m : mresult :=
  msteps (sizes (all_types first ty c)) (has_value rt) code n (Go 0 [] m).

(** Code is generated for the function, and its expressions are those of C44. *)
Definition compiled first ty rt is_main body code c : Prop :=
  lower_function first ty rt is_main body = Done (code, c) /\ stmt_ok first body.

(** If C's function returns, so does the code: the same value, in the return type, and with the same values
    in the variables. *)
Theorem C45_returns_partial : forall first ty rt is_main body code c env m n v env',
  compiled first ty rt is_main body code c -> holds_below first ty env m ->
  c_run ty rt is_main body n env = Returned v env' ->
  exists n' r m',
    code_run first ty rt c code n' m = Result r m' /\ holds_below first ty env' m' /\
    match v, rt, r with
    | None, None, None => True
    | Some v, Some t, Some r => fetch (sizes (all_types first ty c)) m' (width t) r = Next (v mod 2 ^ width t) /\ object_value t v
    | _, _, _ => False
    end.
Proof.
  intros first ty rt is_main body code c env m n v env' [Lo W] H R.
  destruct (function_sim first ty rt is_main body code c env m Lo W H) as (U & pend & L & stF & Wh & Nm & La & Si).
  unfold c_run in R. destruct (run_sim first ty rt is_main body code L c U pend stF Wh Nm La n _ _ Si ltac:(rewrite R; discriminate)) as (R' & S' & n' & E).
  rewrite R in S'. revert E. inversion S' as [| |env0 m0 RT H'|env0 m0 r t v0 RT Y O H'|]; subst; intro E; exists n'.
  - exists None, m0. split; [exact E|]. split; [exact H'|exact I].
  - exists (Some r), m0. split; [exact E|]. split; [exact H'|]. split; [exact (fetch_yields (all_types first ty c) m0 r t v0 Y)|exact O].
Qed.
Print Assumptions C45_returns_partial.

(** If it reaches its closing brace, so does the code, and the variables have the same values.  For
    [int main] this does not happen: it returns 0. *)
Theorem C45_ends_partial : forall first ty rt is_main body code c env m n env',
  compiled first ty rt is_main body code c -> holds_below first ty env m ->
  c_run ty rt is_main body n env = Ended env' ->
  exists n' m', code_run first ty rt c code n' m = Past_end m' /\ holds_below first ty env' m'.
Proof.
  intros first ty rt is_main body code c env m n env' [Lo W] H R.
  destruct (function_sim first ty rt is_main body code c env m Lo W H) as (U & pend & L & stF & Wh & Nm & La & Si).
  unfold c_run in R. destruct (run_sim first ty rt is_main body code L c U pend stF Wh Nm La n _ _ Si ltac:(rewrite R; discriminate)) as (R' & S' & n' & E).
  rewrite R in S'. revert E. inversion S' as [| | | |env0 m0 H']; subst. intro E. exists n', m0. auto.
Qed.
Print Assumptions C45_ends_partial.

(** If it runs for ever, so does the code. *)
Theorem C45_runs_on_partial : forall first ty rt is_main body code c env m,
  compiled first ty rt is_main body code c -> holds_below first ty env m ->
  (forall n, exists s k env', c_run ty rt is_main body n env = Running s k env') ->
  forall n, exists pc s m', code_run first ty rt c code n m = Go pc s m'.
Proof.
  intros first ty rt is_main body code c env m [Lo W] H On.
  destruct (function_sim first ty rt is_main body code c env m Lo W H) as (U & pend & L & stF & Wh & Nm & La & Si).
  exact (never_ends first ty rt is_main body code L c U pend stF Wh Nm La body Kstop env _ On Si).
Qed.
Print Assumptions C45_runs_on_partial.

(** No label and no case of a switch is placed twice. *)
Theorem C45_labels : forall first ty rt is_main body code c,
  compiled first ty rt is_main body code c ->
  forall before i after, code = before ++ i :: after ->
    (exists n, i = Plain (Jump_label n)) \/ (exists id v, i = Case id v) -> ~ In i before /\ ~ In i after.
Proof.
  intros first ty rt is_main body code c [Lo W] before i after E K.
  assert (U : NoDup (marks code)).
  { unfold lower_function in Lo. apply bind_inv in Lo. destruct Lo as (cd & st & A & Lo). destruct (forallb resolved _); [|discriminate]. apply done_inj in Lo. destruct Lo as [<- <-].
    assert (B : bounded outermost (fresh (mkflow (mkcounters 0 []) [] None []))) by (intros id X; discriminate).
    destruct (lower_shape first ty rt body _ _ _ _ W A B) as [_ (_ & N & _)]. rewrite marks_app, StmtShape.marks_resolve.
    match goal with |- NoDup (_ ++ marks ?t) => replace (marks t) with (@nil mark) by (destruct is_main, rt as [[]|]; reflexivity) end.
    rewrite app_nil_r. exact N. }
  rewrite E, marks_app in U.
  assert (X : forall j l, In j l -> marks_of j = marks_of i -> exists k, marks_of i = [k] /\ In k (marks l)).
  { intros j l Hj Ej. assert (Z : exists k, marks_of i = [k]) by (destruct K as [[n ->]|(id & v & ->)]; eexists; reflexivity).
    destruct Z as [k Z]. exists k. split; [exact Z|]. apply in_flat_map. exists j. split; [exact Hj|]. rewrite Ej, Z. left. reflexivity. }
  assert (Y : exists k, marks_of i = [k]) by (destruct K as [[n ->]|(id & v & ->)]; eexists; reflexivity).
  destruct Y as [k Y]. change (marks (i :: after)) with (marks_of i ++ marks after) in U. rewrite Y in U. cbn [app] in U. apply NoDup_remove_2 in U. rewrite in_app_iff in U.
  split; intro B; apply U; destruct (X i _ B eq_refl) as (k' & Z & I0); rewrite Y in Z; injection Z as <-; auto.
Qed.
Print Assumptions C45_labels.

(** [int f(int n) { int s; s = 0;
      for(; n; n = n - 1){
        switch(n){ case 3: s = s + 100; case 2: s = s + 10; break; case 5: continue;
                   default: if(s > 1000) goto out; else s = s + 1; }
        do { s = s + 1000; if(n) break; } while(1); }
      out: return s; }] with [n] of type signed char. *)
Definition st_ty : typing := fun x => match x with O => S8 | _ => S32 end.
Definition st_lit (v : Z) : bexpr := BLit S32 v.
Definition st_add (v : Z) : stmt := SEffect (Assign 1 (BArith OAdd (BVar 1) (st_lit v))).
Definition st_body : stmt :=
  SSeq (SEffect (Assign 1 (st_lit 0)))
  (SSeq (SFor (Some (BVar 0)) (Some (Assign 0 (BArith OSub (BVar 0) (st_lit 1))))
           (SSeq (SSwitch (BVar 0)
                    (SSeq (SCase S32 3 (st_add 100)) (SSeq (SCase S32 2 (st_add 10)) (SSeq SBreak (SSeq (SCase S32 5 SContinue)
                    (SDefault (SIfElse (BCmp OGt (BVar 1) (st_lit 3000)) (SGoto 7) (st_add 1))))))))
                 (SDo (SSeq (st_add 1000) (SIf (BVar 0) SBreak)) (st_lit 1))))
        (SLabel 7 (SReturn (Some (BVar 1))))).
Definition st_env (n : Z) : values := fun x => match x with O => n | _ => 77 end.

Lemma st_holds : forall n, -100 <= n <= 100 -> holds_below 2 st_ty (st_env n) (fun x => match x with O => n mod 256 | _ => 77 end).
Proof.
  intros n N i L. unfold object_value, in_range. destruct i as [|[|i]]; [..|lia]; (split; [split; [|discriminate]|]).
  - cbn [st_ty st_env]. change (minv S8) with (-128). change (maxv S8) with 127. lia.
  - reflexivity.
  - cbn. lia.
  - reflexivity.
Qed.

Definition returned (p : progress) : option Z := match p with Returned v _ => v | _ => None end.
Definition result_word (r : mresult) : option Z := match r with Result (Some c) m => Some (contents m c) | _ => None end.

Example C45_applies :
  (exists code c, compiled 2 st_ty (Some S32) false st_body code c /\ result_word (code_run 2 st_ty (Some S32) c code 400 (fun x => match x with O => 4 | _ => 77 end)) = Some 3121) /\
  returned (c_run st_ty (Some S32) false st_body 200 (st_env 4)) = Some 3121 /\
  returned (c_run st_ty (Some S32) false st_body 200 (st_env 6)) = Some 4122.
Proof.
  split; [|split; vm_compute; reflexivity].
  eexists _, _. split; [split; [vm_compute; reflexivity|cbn; repeat split; try exact I; try (cbn; lia); try discriminate]|]. vm_compute; reflexivity.
Qed.

(** [void f(int n) { while(n) ; }] and [int main() { if(n) ; else return 3; }] *)
Definition st_spin : stmt := SWhile (BVar 1) SSkip.
Definition st_main : stmt := SIfElse (BVar 1) SSkip (SReturn (Some (st_lit 3))).
Example C45_applies_on :
  (exists code c, compiled 2 st_ty None false st_spin code c) /\
  (forall n, exists s k env', c_run st_ty None false st_spin n (st_env 4) = Running s k env') /\
  (exists env', c_run st_ty None false st_spin 9 (fun _ => 0) = Ended env') /\
  (exists code c, compiled 2 st_ty (Some S32) true st_main code c) /\
  returned (c_run st_ty (Some S32) true st_main 9 (st_env 4)) = Some 0.
Proof.
  split; [eexists _, _; split; [vm_compute; reflexivity|cbn; repeat split; cbn; lia]|]. split; [|split; [eexists; reflexivity|]].
  - assert (H : forall n, (exists s k env', csteps st_ty None st_spin false n (Running st_spin Kstop (st_env 4)) = Running s k env') /\
                          (exists s k env', csteps st_ty None st_spin false n (Running SSkip (Kwhile (BVar 1) SSkip Kstop) (st_env 4)) = Running s k env')).
    { induction n as [|n [IH1 IH2]]; [split; eexists _, _, _; reflexivity|]. split; [exact IH2|exact IH1]. }
    intro n. apply H.
  - split; [eexists _, _; split; [vm_compute; reflexivity|cbn; repeat split; try exact I; try (cbn; lia); try discriminate]|vm_compute; reflexivity].
Qed.
