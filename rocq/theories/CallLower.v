(** The instructions for calls with their arguments do what the calls mean. *)
From Coq Require Import List ZArith Lia Bool.
From Verif Require Import Base IntTypes CSpec LowerSpec CallSpec CallModel.
From Verif Require LowerModel LowerProofs CallProofs.
Import ListNotations.
Open Scope Z_scope.

Lemma cexpr_ind2 : forall P : cexpr -> Prop, (forall e, P (Plain e)) -> (forall f args, Forall P args -> P (Call f args)) -> forall e, P e.
Proof.
  intros P H1 H2. fix IH 1. intros [e|f args]; [apply H1|]. apply H2. induction args as [|a args IHa]; constructor; [apply IH|exact IHa].
Qed.

Section Lowering.
Variables (W : Type) (sigs : nat -> signature) (meaning : nat -> list Z -> W -> option (Z * W)).
Variables (ty : typing) (env : values) (mv : LowerModel.memory).
Hypothesis H_holds : LowerSpec.holds ty env mv.
Hypothesis H_results : results_in_type sigs meaning.

Local Notation vb := (fun x => bits (ty x)).
Local Notation ceval := (ceval W sigs meaning ty env).
Local Notation yields := (LowerProofs.yields ty mv).
Local Notation cexecs := (CallProofs.cexecs vb mv W sigs meaning).
Local Notation args_hold := (CallProofs.args_hold vb mv).

Fixpoint args_eval (ps : list ity) (args : list cexpr) (w : W) {struct args} : option (list Z * W) :=
  match ps, args with
  | [], [] => Some ([], w)
  | p :: ps, a :: args =>
      match ceval w a with
      | Some (_, v, w) =>
          match args_eval ps args w with
          | Some (vs, w) => Some (convert p v :: vs, w)
          | None => None
          end
      | None => None
      end
  | _, _ => None
  end.

Fixpoint args_lower (ps : list ity) (args : list cexpr) {struct args} : outcome (list citem) :=
  match ps, args with
  | [], [] => Done []
  | p :: ps, a :: args =>
      obind (lower_call sigs ty (Some p) a) (fun c =>
      obind (args_lower ps args) (fun cs => Done (fst c ++ cs)))
  | _, _ => Reported
  end.

Lemma ceval_call : forall f args w, ceval w (Call f args) =
  match args_eval (parameters (sigs f)) args w with
  | Some (vs, w) => match meaning f vs w with Some (v, w) => Some (result (sigs f), v, w) | None => None end
  | None => None
  end.
Proof. reflexivity. Qed.

Lemma lower_call_eq : forall target f args, lower_call sigs ty target (Call f args) =
  obind (args_lower (parameters (sigs f)) args) (fun c => Done (cast_result target (result (sigs f)) (c ++ [CCall f (length args) (bits (result (sigs f)) / 8)]))).
Proof. reflexivity. Qed.

Lemma args_counted : forall args, Forall (fun e => forall target r, lower_call sigs ty target e = Done r -> arguments_match sigs e) args -> forall ps cs,
  args_lower ps args = Done cs -> length args = length ps /\
  (fix all (l : list cexpr) : Prop := match l with [] => True | a :: l => arguments_match sigs a /\ all l end) args.
Proof.
  intros args F. induction F as [|a args Ha F IH]; intros [|p ps] cs H; cbn [args_lower] in H; try discriminate; [split; [reflexivity|exact I]|].
  destruct (lower_call sigs ty (Some p) a) as [c| |] eqn:E1; cbn [obind] in H; try discriminate.
  destruct (args_lower ps args) as [c2| |] eqn:E2; cbn [obind] in H; try discriminate.
  destruct (IH ps c2 E2) as (L & A). split; [cbn [length]; congruence|]. split; [exact (Ha _ _ E1)|exact A].
Qed.

Lemma lower_counted : forall e target r, lower_call sigs ty target e = Done r -> arguments_match sigs e.
Proof.
  apply (cexpr_ind2 (fun e => forall target r, lower_call sigs ty target e = Done r -> arguments_match sigs e)); [intros; exact I|].
  intros f args F target r H. rewrite lower_call_eq in H. destruct (args_lower (parameters (sigs f)) args) as [c| |] eqn:E; cbn [obind] in H; try discriminate.
  exact (args_counted args F _ _ E).
Qed.

Definition simple (e : vexpr) : Prop := literals_ok e /\ no_constant_comma e.

Definition lowers (e : cexpr) : Prop := forall target t v w w1, plain_parts simple e -> ceval w e = Some (t, v, w1) ->
  exists cs, lower_call sigs ty target e = Done (cs, match target with Some p => p | None => t end) /\ object_value t v /\
    exists c, yields c (match target with Some p => p | None => t end) (match target with Some p => convert p v | None => v end) /\
      forall Ls, cexecs cs Ls mv w (c :: Ls) mv w1.

Lemma plain_lowers : forall e, lowers (Plain e).
Proof.
  intros e target t v w w1 (LO & NC) Ev. cbn [CallSpec.ceval] in Ev. destruct (veval ty env e) as [(t0 & v0)|] eqn:V; [|discriminate].
  assert (t0 = t /\ v0 = v /\ w = w1) as (-> & -> & ->) by (repeat split; congruence). clear Ev.
  destruct (LowerProofs.lower_ok ty mv env e t v H_holds LO NC V) as (q & Lq & G & _).
  cbn [lower_call]. rewrite Lq. cbn [obind].
  assert (X : exists c, LowerModel.resolved_type (match target with Some p => LowerModel.cast_expr p q | None => q end) = match target with Some p => p | None => t end /\
    yields c (match target with Some p => p | None => t end) (match target with Some p => convert p v | None => v end) /\
    forall s, LowerModel.exec vb (LowerModel.emit (match target with Some p => LowerModel.cast_expr p q | None => q end)) s mv = LowerModel.Next (c :: s, mv)).
  { destruct target as [p|].
    - pose proof (LowerProofs.cast_good ty mv p q t v G) as G'. destruct (LowerProofs.good_emit ty mv _ _ _ G') as (c & X & Y & _). exists c. split; [apply G'|]. split; [exact Y|exact X].
    - destruct (LowerProofs.good_emit ty mv _ _ _ G) as (c & X & Y & _). exists c. split; [apply G|]. split; [exact Y|exact X]. }
  destruct X as (c & T & Y & X). rewrite T. eexists. split; [reflexivity|]. split; [apply G|]. exists c. split; [exact Y|].
  intro Ls. apply CallProofs.cexecs_irs, X.
Qed.

Lemma args_lowers : forall args, Forall lowers args -> forall ps w vs w1,
  (fix all (l : list cexpr) : Prop := match l with [] => True | a :: l => plain_parts simple a /\ all l end) args ->
  args_eval ps args w = Some (vs, w1) ->
  exists cs cl, args_lower ps args = Done cs /\ args_hold ps cl vs /\ length cl = length args /\
    forall Ls, cexecs cs Ls mv w (rev cl ++ Ls) mv w1.
Proof.
  intros args F. induction F as [|a args Ha F IH]; intros [|p ps] w vs w1 PP Ev; cbn [args_eval args_lower] in *; try discriminate.
  - assert (vs = [] /\ w = w1) as (-> & ->) by (split; congruence). exists [], []. split; [reflexivity|]. split; [exact I|]. split; [reflexivity|].
    intro Ls. apply CallProofs.cx_nil.
  - destruct PP as (P1 & P2). destruct (ceval w a) as [((t & v) & w2)|] eqn:E1; [|discriminate].
    destruct (args_eval ps args w2) as [(vs' & w3)|] eqn:E2; [|discriminate].
    assert (vs = convert p v :: vs' /\ w3 = w1) as (-> & ->) by (split; congruence). clear Ev.
    destruct (Ha (Some p) t v w w2 P1 E1) as (c1 & L1 & _ & c & Y & X1).
    destruct (IH ps w2 vs' w1 P2 E2) as (cs & cl & L2 & A & Ln & X2).
    rewrite L1. cbn [obind]. rewrite L2. cbn [obind fst]. exists (c1 ++ cs), (c :: cl). split; [reflexivity|]. split; [|split; [cbn; lia|]].
    + destruct Y as (Y1 & Y2). split; [exact Y1|]. split; [exact Y2|exact A].
    + intro Ls. cbn [rev]. rewrite <- app_assoc. eapply CallProofs.cexecs_app; [apply X1|]. apply (X2 (c :: Ls)).
Qed.

Lemma all_lowers : forall e, lowers e.
Proof.
  apply cexpr_ind2; [exact plain_lowers|]. intros f args F target t v w w1 PP Ev. rewrite ceval_call in Ev.
  destruct (args_eval (parameters (sigs f)) args w) as [(vs & w2)|] eqn:Ea; [|discriminate].
  destruct (meaning f vs w2) as [(v0 & w3)|] eqn:Em; [|discriminate].
  assert (result (sigs f) = t /\ v0 = v /\ w3 = w1) as (<- & -> & ->) by (repeat split; congruence). clear Ev.
  pose proof (H_results _ _ _ _ _ Em) as O.
  destruct (args_lowers args F _ _ _ _ PP Ea) as (cs & cl & L & A & Ln & X).
  rewrite lower_call_eq, L. cbn [obind].
  set (r := result (sigs f)) in *. set (c0 := LowerModel.Value (width r) (v mod 2 ^ width r)).
  assert (Y0 : yields c0 r v) by (split; reflexivity).
  assert (X0 : forall Ls, cexecs (cs ++ [CCall f (length args) (bits r / 8)]) Ls mv w (c0 :: Ls) mv w1).
  { intro Ls. eapply CallProofs.cexecs_app; [apply X|]. rewrite <- Ln, <- (rev_length cl). eapply CallProofs.cx_call; [|exact Em|apply CallProofs.cx_nil].
    rewrite rev_involutive. exact A. }
  destruct target as [p|]; cbn [cast_result].
  - eexists. split; [reflexivity|]. split; [exact O|]. destruct (ity_eqb_spec r p) as [Erp|N].
    + exists c0. rewrite <- Erp, LowerProofs.convert_self by exact O. split; [exact Y0|]. cbn [map]. rewrite app_nil_r. exact X0.
    + destruct (LowerProofs.cast_ok ty mv c0 r p v Y0 O I) as (c' & (C1 & _) & _ & Y'). exists c'. split; [exact Y'|].
      intro Ls. eapply CallProofs.cexecs_app; [apply X0|]. apply CallProofs.cexecs_irs, C1.
  - eexists. split; [reflexivity|]. split; [exact O|]. exists c0. split; [exact Y0|exact X0].
Qed.
End Lowering.
