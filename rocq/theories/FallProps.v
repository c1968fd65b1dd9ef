(** C46: the warning about functions that can reach their closing brace.  Runs of a function are those of
    StmtSpec.v; the functions for which the warning can be relied on are those of FallSpec.v. *)
From Coq Require Import List ZArith Bool Lia.
From Verif Require Import Base IntTypes CSpec IntModel LowerSpec LowerModel LowerProofs BranchSpec BranchModel
                          StmtSpec StmtModel StmtProps FallSpec FallModel FallProofs.
Import ListNotations.
Open Scope Z_scope.

(** A function with a return type that is compiled without a warning never reaches its closing brace without a
    value to return. *)
Theorem C46_missing_return_partial : forall first ty t is_main body code c env n env',
  compiled first ty (Some t) is_main body code c -> well_structured body -> values_fit first ty env ->
  warned first ty false (Some t) is_main body = false ->
  c_run ty (Some t) is_main body n env <> Ended env'.
Proof.
  intros first ty t is_main body code c env n env' [_ K] W V Wn E.
  assert (A : false = true \/ Some t <> None) by (right; discriminate).
  pose proof (unwarned first ty false (Some t) is_main body env n K W V A Wn) as H.
  unfold c_run in E. rewrite E in H. exact H.
Qed.
Print Assumptions C46_missing_return_partial.

(** A [_Noreturn] function that is compiled without a warning never returns. *)
Theorem C46_noreturn_partial : forall first ty rt body code c env n,
  compiled first ty rt false body code c -> well_structured body -> values_fit first ty env ->
  warned first ty true rt false body = false ->
  match c_run ty rt false body n env with Running _ _ _ | Undefined => True | Returned _ _ | Ended _ => False end.
Proof.
  intros first ty rt body code c env n [_ K] W V Wn.
  pose proof (unwarned first ty true rt false body env n K W V (or_introl eq_refl) Wn) as H. unfold c_run.
  destruct (csteps ty rt body false n (Running body Kstop env)) as [s k env1|v env1|env1|]; try exact I.
  - destruct (H eq_refl). discriminate.
  - exact H.
Qed.
Print Assumptions C46_noreturn_partial.

(** [int f(int x) {
      while(1){
        switch(x){ case 1: continue; case 2: return 2; default: x = x - 1; break; }
        if(x) goto out; else { for(;;) x = 3; }
      }
      out: do { return x; } while(0); }] *)
Definition fa_x : bexpr := BVar 0.
Definition fa_lit (v : Z) : bexpr := BLit S32 v.
Definition fa_ty : typing := fun _ => S32.
Definition fa_body : stmt :=
  SSeq (SWhile (fa_lit 1)
          (SSeq (SSwitch fa_x
                   (SSeq (SCase S32 1 SContinue) (SSeq (SCase S32 2 (SReturn (Some (fa_lit 2))))
                         (SSeq (SDefault (SEffect (Assign 0 (BArith OSub fa_x (fa_lit 1))))) SBreak))))
                (SIfElse fa_x (SGoto 7) (SFor None None (SEffect (Assign 0 (fa_lit 3)))))))
       (SLabel 7 (SDo (SReturn (Some fa_x)) (fa_lit 0))).

Example C46_missing_return_applies :
  (exists code c, compiled 1 fa_ty (Some S32) false fa_body code c) /\ well_structured fa_body /\
  values_fit 1 fa_ty (fun _ => 9) /\
  warned 1 fa_ty false (Some S32) false fa_body = false /\
  (exists env, c_run fa_ty (Some S32) false fa_body 40 (fun _ => 9) = Returned (Some 8) env) /\
  (* without the last statement there is a warning, and the function can end *)
  warned 1 fa_ty false (Some S32) false (SSeq fa_body (SLabel 8 SSkip)) = true /\
  warned 1 fa_ty false (Some S32) false (SIf fa_x (SReturn (Some fa_x))) = true /\
  (exists env, c_run fa_ty (Some S32) false (SIf fa_x (SReturn (Some fa_x))) 40 (fun _ => 0) = Ended env).
Proof.
  split; [|split; [|split; [|split; [|split; [|split; [|split]]]]]].
  - eexists. eexists. split; [vm_compute; reflexivity|]. cbn; repeat split; try exact I; try (cbn; lia); try discriminate.
  - vm_compute. repeat split; reflexivity.
  - intros x _. split; [split; vm_compute; discriminate|discriminate].
  - vm_compute. reflexivity.
  - eexists. vm_compute. reflexivity.
  - vm_compute. reflexivity.
  - vm_compute. reflexivity.
  - eexists. vm_compute. reflexivity.
Qed.

(** [_Noreturn void f(int x) { while(1){ if(x) continue; x = 1; } }]: no warning; with a [return;] in it or with a condition
    that is not constant there is one. *)
Definition fa_loop (e : bexpr) (s : stmt) : stmt := SWhile e (SSeq (SIf fa_x s) (SEffect (Assign 0 (fa_lit 1)))).
Example C46_noreturn_applies :
  (exists code c, compiled 1 fa_ty None false (fa_loop (fa_lit 1) SContinue) code c) /\ well_structured (fa_loop (fa_lit 1) SContinue) /\
  warned 1 fa_ty true None false (fa_loop (fa_lit 1) SContinue) = false /\
  warned 1 fa_ty true None false (fa_loop (fa_lit 1) (SReturn None)) = true /\
  warned 1 fa_ty true None false (fa_loop (fa_lit 1) SBreak) = true /\
  warned 1 fa_ty true None false (fa_loop fa_x SContinue) = true.
Proof.
  split; [|vm_compute; repeat split; reflexivity].
  eexists. eexists. split; [vm_compute; reflexivity|]. cbn; repeat split; try exact I; try (cbn; lia); try discriminate.
Qed.

(** There is no warning for a function that obviously does not reach its closing brace. *)
Theorem C46_no_false_warning : forall first ty rt is_main body, obvious body -> warned first ty false rt is_main body = false.
Proof.
  intros first ty rt is_main body O. unfold warned. rewrite walk_flags, (obvious_returns first ty body O). cbn [returns reported orb]. rewrite andb_false_r.
  destruct is_main, rt as [[]|]; reflexivity.
Qed.
Print Assumptions C46_no_false_warning.

(** [switch(x){ case 1: case 2: if(x) return 1; else while(5) x = 1; default: out: return 3; }] *)
Example C46_no_false_warning_applies :
  obvious (SSwitch fa_x (SSeq (SCase S32 1 (SCase S32 2 (SIfElse fa_x (SReturn (Some (fa_lit 1))) (SWhile (fa_lit 5) (SEffect (Assign 0 (fa_lit 1)))))))
                              (SDefault (SLabel 7 (SReturn (Some (fa_lit 3))))))) /\
  ~ obvious (SWhile fa_x (SReturn (Some (fa_lit 1)))).
Proof. vm_compute. repeat split; auto. discriminate. Qed.

(** For other functions the warning is missing although the function ends without a value:
    [do { if(x) break; return 1; } while(0);], [do { continue; } while(0);], [goto out; if(x){ out: ; }] and
    [switch(x){ return 1; if(x) default: ; }]. *)
Definition falls_silently (body : stmt) (x : Z) : Prop :=
  (exists code c, compiled 1 fa_ty (Some S32) false body code c) /\
  warned 1 fa_ty false (Some S32) false body = false /\
  exists env, c_run fa_ty (Some S32) false body 20 (fun _ => x) = Ended env.

Theorem C46_missing_return_refuted :
  falls_silently (SDo (SSeq (SIf fa_x SBreak) (SReturn (Some (fa_lit 1)))) (fa_lit 0)) 5 /\
  falls_silently (SDo SContinue (fa_lit 0)) 5 /\
  falls_silently (SSeq (SGoto 7) (SIf fa_x (SLabel 7 SSkip))) 5 /\
  falls_silently (SSwitch fa_x (SSeq (SReturn (Some (fa_lit 1))) (SIf fa_x (SDefault SSkip)))) 5.
Proof.
  repeat split; try (eexists; vm_compute; reflexivity);
    eexists; eexists; (split; [vm_compute; reflexivity|]); cbn; repeat split; try exact I; try (cbn; lia); try discriminate.
Qed.
Print Assumptions C46_missing_return_refuted.
