(** Proofs for code with jumps (BranchModel.v). *)
From Coq Require Import List ZArith Bool Lia Arith.
From Verif Require Import Base IntTypes CSpec IntModel IntProofs LowerSpec LowerModel LowerProofs BranchSpec BranchModel.
Import ListNotations.
Open Scope Z_scope.

Definition straight (i : ir) : Prop := match i with Jump_label _ | Jump _ | Jump_if _ _ | Identifier _ => False | _ => True end.
Definition labels (c : list ir) : list nat := flat_map (fun i => match i with Jump_label k => [k] | _ => [] end) c.
Definition below (hi : nat) (i : ir) : Prop := match i with Identifier x => (x < hi)%nat | _ => True end.
Definition lok (hi : nat) (c : operand) : Prop := match c with Location x => (x < hi)%nat | _ => True end.

Lemma labels_app : forall a b, labels (a ++ b) = labels a ++ labels b.
Proof. intros a b. unfold labels. apply flat_map_app. Qed.

Lemma labels_in : forall c k, In (Jump_label k) c -> In k (labels c).
Proof. intros c k H. unfold labels. apply in_flat_map. exists (Jump_label k). split; [exact H|left; reflexivity]. Qed.

Lemma straight_labels : forall c, Forall straight c -> labels c = [].
Proof.
  intros c H. induction H as [|i c Hi _ IH]; [reflexivity|]. unfold labels in *. cbn [flat_map]. rewrite IH.
  destruct i; cbn in Hi; try contradiction; reflexivity.
Qed.

Lemma straight_below : forall hi c, Forall straight c -> Forall (below hi) c.
Proof. intros hi c H. eapply Forall_impl; [|exact H]. intros i Hi. destruct i; cbn in *; tauto. Qed.

Section Run.
Variable vb : nat -> Z.
Notation run := (run vb).
Notation exec := (exec vb).
Notation step := (step vb).

Lemma run_exec : forall c s m s1 m1, exec c s m = Next (s1, m1) -> run c None s m = Next (s1, m1).
Proof.
  induction c as [|i c IH]; intros s m s1 m1 H; [exact H|].
  cbn [LowerModel.exec] in H. destruct (step i s m) as [[s2 m2]| |] eqn:E; try discriminate. cbn [rbind fst snd] in H.
  pose proof (IH _ _ _ _ H) as R.
  destruct i; cbn [BranchModel.run]; try (rewrite E; exact R); cbn in E; discriminate.
Qed.

Lemma run_app : forall c1 c2 tg s m s1 m1, run c1 tg s m = Next (s1, m1) -> run (c1 ++ c2) tg s m = run c2 None s1 m1.
Proof.
  induction c1 as [|i c1 IH]; intros c2 tg s m s1 m1 H.
  - cbn [BranchModel.run] in H. destruct tg; [discriminate|]. injection H as <- <-. reflexivity.
  - cbn [app BranchModel.run] in *. destruct tg as [n|].
    + destruct i; try (apply IH; exact H). destruct (Nat.eqb label n); apply IH; exact H.
    + destruct i; try (apply IH; exact H);
        try (match goal with |- rbind ?x _ = _ => destruct x as [[s2 m2]| |]; try discriminate end; cbn [rbind fst snd] in *; apply IH; exact H).
      destruct s as [|a s]; [discriminate|]. apply IH. exact H.
Qed.

Lemma run_skip : forall c1 c2 n s m, ~ In n (labels c1) -> run (c1 ++ c2) (Some n) s m = run c2 (Some n) s m.
Proof.
  induction c1 as [|i c1 IH]; intros c2 n s m H; [reflexivity|]. cbn [app BranchModel.run].
  change (i :: c1) with ([i] ++ c1) in H. rewrite labels_app, in_app_iff in H.
  destruct i; try (apply IH; tauto). destruct (Nat.eqb_spec label n) as [->|N]; [|apply IH; tauto].
  exfalso. apply H. left. left. reflexivity.
Qed.

Lemma run_skip_to : forall c1 c2 n s m, ~ In n (labels c1) -> run (c1 ++ Jump_label n :: c2) (Some n) s m = run c2 None s m.
Proof. intros c1 c2 n s m H. rewrite run_skip by exact H. cbn [BranchModel.run]. rewrite Nat.eqb_refl. reflexivity. Qed.

Lemma rbind_inv : forall A B (x : result A) (f : A -> result B) b, rbind x f = Next b -> exists a, x = Next a /\ f a = Next b.
Proof. intros A B [a| |] f b H; cbn in H; try discriminate. exists a. auto. Qed.

(** Locations on the stack stem from the stack or from an identifier. *)
Lemma cast_lok : forall hi c m a b, cast_word vb c m a = Next b -> lok hi b.
Proof.
  intros hi c m a b H. destruct c; destruct a; cbn [cast_word] in H;
    repeat match type of H with
           | rbind _ _ = Next _ => apply rbind_inv in H; destruct H as (? & _ & H)
           | (if ?x then _ else _) = Next _ => destruct x; [|discriminate]
           end; injection H as <-; exact I.
Qed.

Lemma step_lok : forall hi i s m s1 m1, step i s m = Next (s1, m1) -> below hi i -> Forall (lok hi) s -> Forall (lok hi) s1.
Proof.
  intros hi i s m s1 m1 H B F.
  destruct i; cbn [LowerModel.step] in H; try discriminate;
    try (unfold binary, unary, assignment, shift_assignment, step_variable, truth in H);
    repeat match goal with
           | H : rbind (cast_word _ _ _ _) _ = Next _ |- _ => apply rbind_inv in H; let E := fresh "E" in destruct H as (? & E & H); apply (cast_lok hi) in E
           | H : rbind (fetch _ _ _ _) _ = Next _ |- _ => apply rbind_inv in H; destruct H as (? & _ & H)
           | H : rbind (divide _ _ _ _) _ = Next _ |- _ => apply rbind_inv in H; destruct H as (? & _ & H)
           | H : rbind _ _ = Next _ |- _ => apply rbind_inv in H; let E := fresh "E" in destruct H as (? & E & H)
           | H : (match ?x with _ => _ end) = Next _ |- _ => destruct x eqn:?; try discriminate
           | H : Next _ = Next _ |- _ => injection H as ?; subst
           end;
    repeat match goal with F : Forall _ (_ :: _) |- _ => apply Forall_cons_iff in F; destruct F as (? & F) end;
    repeat constructor; auto; try exact I; try exact B.
Qed.

Lemma run_lok : forall hi c tg s m s1 m1, run c tg s m = Next (s1, m1) -> Forall (below hi) c -> Forall (lok hi) s -> Forall (lok hi) s1.
Proof.
  intros hi. induction c as [|i c IH]; intros tg s m s1 m1 H B F.
  - cbn [BranchModel.run] in H. destruct tg; [discriminate|]. injection H as <- <-. exact F.
  - apply Forall_cons_iff in B. destruct B as (Bi & B). cbn [BranchModel.run] in H. destruct tg as [n|].
    + destruct i; try (eapply IH; eassumption). destruct (Nat.eqb label n); eapply IH; eassumption.
    + assert (K : forall s2 m2, step i s m = Next (s2, m2) -> run c None s2 m2 = Next (s1, m1) -> Forall (lok hi) s1).
      { intros s2 m2 E R. eapply IH; [exact R|exact B|]. eapply step_lok; eassumption. }
      destruct i; try (eapply IH; eassumption);
        try (apply rbind_inv in H; destruct H as ([s2 m2] & E & H); eapply K; eassumption).
      destruct s as [|a s]; [discriminate|]. apply Forall_cons_iff in F. eapply IH; [exact H|exact B|apply F].
Qed.
End Run.

(* ------------------------------------------------------------------ *)
(** ** How the operators use the code of their operands *)

Definition alike (a a' : expr) : Prop := resolved_type a = resolved_type a' /\ literal a = literal a'.
Definition part (a a' : expr) (p p' : list ir) : Prop :=
  match literal a with
  | Some _ => p = p' /\ exists l, p = [Integer_literal l]
  | None => p = code a /\ p' = code a'
  end.

Lemma cast_code_straight : forall lhs a t, Forall straight (cast_code lhs a t).
Proof. intros lhs a t. destruct a, t; cbn; repeat constructor. Qed.

Lemma push_parts : forall lhs t a a', alike a a' ->
  exists p p' k x x', push_cast_expr lhs t a = (x, k) /\ push_cast_expr lhs t a' = (x', k) /\
    emit x = p /\ emit x' = p' /\ part a a' p p' /\ Forall straight k /\ alike x x' /\
    resolved_type x = t /\ (literal x = None <-> literal a = None) /\ (literal a = None -> code x = code a /\ code x' = code a') /\
    (literal a <> None -> k = []).
Proof.
  intros lhs t a a' [T L]. unfold push_cast_expr, part, emit, alike. rewrite <- T, <- L.
  destruct (ity_eqb_spec (resolved_type a) t) as [E|E].
  - exists (emit a), (emit a'), [], a, a'. unfold emit. rewrite <- L.
    destruct (literal a) as [l|]; repeat split; auto; try congruence; try tauto; eauto.
  - destruct (literal a) as [l|] eqn:LA.
    + eexists _, _, _, _, _. split; [reflexivity|]. split; [reflexivity|]. cbn [emit literal code resolved_type].
      repeat split; eauto; try congruence; try discriminate.
    + eexists _, _, _, _, _. split; [reflexivity|]. split; [reflexivity|]. cbn [emit literal code resolved_type].
      repeat split; auto using cast_code_straight; congruence.
Qed.

Definition tail2 (f : expr -> expr -> outcome expr) : Prop :=
  forall a b a' b', alike a a' -> alike b b' ->
  match f a b, f a' b' with
  | Done e, Done e' =>
      alike e e' /\
      (literal e = None ->
       exists pa pb pa' pb' T, code e = pa ++ pb ++ T /\ code e' = pa' ++ pb' ++ T /\
         part a a' pa pa' /\ part b b' pb pb' /\ Forall straight T)
  | Done _, _ | _, Done _ => False
  | _, _ => True
  end.

Lemma alike_refl : forall a, alike a a.
Proof. intro a. split; reflexivity. Qed.

Lemma converted_tail : forall op rt a b a' b', (forall t, straight (op t)) -> alike a a' -> alike b b' ->
  match converted op rt a b, converted op rt a' b' with
  | Done e, Done e' =>
      alike e e' /\ literal e = None /\
      exists pa pb pa' pb' T, code e = pa ++ pb ++ T /\ code e' = pa' ++ pb' ++ T /\
         part a a' pa pa' /\ part b b' pb pb' /\ Forall straight T
  | Done _, _ | _, Done _ => False
  | _, _ => True
  end.
Proof.
  intros op rt a b a' b' S A B. unfold converted. destruct A as [Ta La]. destruct B as [Tb Lb]. rewrite <- Ta, <- Tb.
  destruct (usual_conversions_int (resolved_type a) (resolved_type b)) as [t|]; [|exact I].
  destruct (push_parts true t a a' (conj Ta La)) as (pa & pa' & ka & x & x' & -> & -> & Ea & Ea' & Pa & Ka & _).
  destruct (push_parts false t b b' (conj Tb Lb)) as (pb & pb' & kb & y & y' & -> & -> & Eb & Eb' & Pb & Kb & _).
  rewrite Ea, Ea', Eb, Eb'. split; [split; reflexivity|]. split; [reflexivity|].
  exists pa, pb, pa', pb', (ka ++ kb ++ [op t]). split; [reflexivity|]. split; [reflexivity|]. split; [exact Pa|]. split; [exact Pb|].
  apply Forall_app. split; [exact Ka|]. apply Forall_app. split; [exact Kb|]. constructor; [apply S|constructor].
Qed.

Ltac by_converted :=
  match goal with |- context [converted ?op ?rt ?a ?b] =>
    match goal with A : alike a ?a', B : alike b ?b' |- _ =>
      let K := fresh "K" in
      assert (K : forall t, straight (op t)) by (let t := fresh "t" in intro t; destruct t; exact I);
      apply (fun K => converted_tail op rt a b a' b' K A B) in K;
      revert K; destruct (converted op rt a b); destruct (converted op rt a' b'); intro K; try exact K; try exact I;
      destruct K as (K1 & K2 & K3); split; [exact K1|intros _; exact K3]
    end
  end.

Lemma arith_tail : forall o, tail2 (lower_arith o).
Proof.
  intros o a b a' b' A B. unfold lower_arith. rewrite <- (proj2 A), <- (proj2 B).
  destruct (literal a) as [l|]; [destruct (literal b) as [r|]|].
  - destruct (fold_arith o l r); cbn [obind]; try exact I. split; [split; reflexivity|discriminate].
  - destruct o; by_converted.
  - destruct o; by_converted.
Qed.
Lemma cmp_tail : forall o, tail2 (lower_cmp o).
Proof.
  intros o a b a' b' A B. unfold lower_cmp. rewrite <- (proj2 A), <- (proj2 B).
  destruct (literal a) as [l|]; [destruct (literal b) as [r|]|].
  - destruct (fold_cmp o l r); cbn [obind]; try exact I. split; [split; reflexivity|discriminate].
  - destruct o; by_converted.
  - destruct o; by_converted.
Qed.
Lemma bit_tail : forall o, tail2 (lower_bit o).
Proof.
  intros o a b a' b' A B. unfold lower_bit. rewrite <- (proj2 A), <- (proj2 B).
  destruct (literal a) as [l|]; [destruct (literal b) as [r|]|].
  - destruct (fold_bit o l r); cbn [obind]; try exact I. split; [split; reflexivity|discriminate].
  - destruct o; by_converted.
  - destruct o; by_converted.
Qed.

Lemma shift_tail : forall left, tail2 (lower_shift left).
Proof.
  intros left a b a' b' A B. unfold lower_shift. rewrite <- (proj2 A), <- (proj2 B).
  assert (K : match
      (let '(a, ca) := push_cast_expr true (perform_integer_promotions (resolved_type a)) a in
      let '(b, cb) := push_cast_expr false (perform_integer_promotions (resolved_type b)) b in
      let bad := match literal b with
                 | Some r => (type_is_signed (resolved_type b) && (read_lit r <? 0))
                             || (integer_literal_as_u64 r >? size (resolved_type a) * 8)
                 | None => false
                 end in
      if bad then Reported
      else
        let '(b, cb8) := push_cast_expr false U8 b in
        let t := resolved_type a in
        Done (mkexpr (emit a ++ emit b ++ ca ++ cb ++ cb8 ++ [if left then Left_shift t else Right_shift t]) t None)),
      (let '(a, ca) := push_cast_expr true (perform_integer_promotions (resolved_type a')) a' in
      let '(b, cb) := push_cast_expr false (perform_integer_promotions (resolved_type b')) b' in
      let bad := match literal b with
                 | Some r => (type_is_signed (resolved_type b) && (read_lit r <? 0))
                             || (integer_literal_as_u64 r >? size (resolved_type a) * 8)
                 | None => false
                 end in
      if bad then Reported
      else
        let '(b, cb8) := push_cast_expr false U8 b in
        let t := resolved_type a in
        Done (mkexpr (emit a ++ emit b ++ ca ++ cb ++ cb8 ++ [if left then Left_shift t else Right_shift t]) t None)) with
    | Done e, Done e' =>
      alike e e' /\
      (literal e = None ->
       exists pa pb pa' pb' T, code e = pa ++ pb ++ T /\ code e' = pa' ++ pb' ++ T /\
         part a a' pa pa' /\ part b b' pb pb' /\ Forall straight T)
    | Done _, _ | _, Done _ => False
    | _, _ => True
    end).
  { rewrite <- (proj1 A), <- (proj1 B).
    destruct (push_parts true (perform_integer_promotions (resolved_type a)) a a' A) as (pa & pa' & ka & x & x' & -> & -> & Ea & Ea' & Pa & Ka & [Tx Lx] & _).
    destruct (push_parts false (perform_integer_promotions (resolved_type b)) b b' B) as (pb & pb' & kb & y & y' & -> & -> & Eb & Eb' & Pb & Kb & Y & Ty & Ly & Cy & Ky).
    cbv zeta. rewrite <- Tx, <- (proj1 Y), <- (proj2 Y).
    destruct (match literal y with Some r => _ | None => false end); [exact I|].
    destruct (push_parts false U8 y y' Y) as (p8 & p8' & k8 & z & z' & -> & -> & E8 & E8' & P8 & K8 & _).
    rewrite Ea, Ea', E8, E8'. split; [split; reflexivity|]. intros _. cbn [code].
    exists pa, p8, pa', p8', (ka ++ kb ++ k8 ++ [if left then Left_shift (resolved_type x) else Right_shift (resolved_type x)]).
    split; [reflexivity|]. split; [reflexivity|]. split; [exact Pa|]. split.
    - unfold part in *. destruct (literal y) as [l|] eqn:LY.
      + destruct (literal b) as [lb|]; [exact P8|]. destruct Ly as [_ Ly]. discriminate (Ly eq_refl).
      + destruct (literal b) as [lb|]; [destruct Ly as [Ly _]; discriminate (Ly eq_refl)|].
        destruct (Cy eq_refl) as [<- <-]. exact P8.
    - repeat (apply Forall_app; split; auto). constructor; [destruct left; exact I|constructor]. }
  destruct (literal a) as [l|]; [destruct (literal b) as [r|]|]; [|exact K|exact K].
  destruct (fold_shift left l r); cbn [obind]; try exact I. split; [split; reflexivity|discriminate].
Qed.

(** Operators with one operand. *)
Definition tail1 (f : expr -> outcome expr) : Prop :=
  forall a a', alike a a' ->
  match f a, f a' with
  | Done e, Done e' =>
      alike e e' /\ (literal a <> None -> literal e <> None) /\
      (literal e = None -> exists T, code e = code a ++ T /\ code e' = code a' ++ T /\ Forall straight T)
  | Done _, _ | _, Done _ => False
  | _, _ => True
  end.

Lemma cast_parts : forall t a a', alike a a' ->
  alike (cast_expr t a) (cast_expr t a') /\ resolved_type (cast_expr t a) = t /\
  (literal (cast_expr t a) = None <-> literal a = None) /\
  (literal a = None -> exists T, code (cast_expr t a) = code a ++ T /\ code (cast_expr t a') = code a' ++ T /\ Forall straight T).
Proof.
  intros t a a' A. unfold cast_expr.
  destruct (push_parts false t a a' A) as (p & p' & k & x & x' & -> & -> & Ea & Ea' & Pa & Ka & [Tx Lx] & Rx & Nx & Cx & Kx).
  cbn [resolved_type literal code]. split; [split; assumption|]. split; [exact Rx|]. split; [exact Nx|].
  intros L. destruct (Cx L) as [-> ->]. exists k. auto.
Qed.

Lemma cast_tail : forall t, tail1 (fun a => Done (cast_expr t a)).
Proof.
  intros t a a' A. destruct (cast_parts t a a' A) as (K1 & _ & K2 & K3). split; [exact K1|]. split; [tauto|]. intro L. apply K3, K2, L.
Qed.

Lemma un_tail : forall o, tail1 (lower_un o).
Proof.
  intros o a a' A. unfold lower_un. rewrite <- (proj2 A). destruct (literal a) as [l|] eqn:LA.
  - destruct (fold_un o l); cbn [obind]; try exact I. split; [split; reflexivity|]. split; discriminate.
  - unfold promotion_cast. rewrite <- (proj1 A).
    destruct (cast_parts (perform_integer_promotions (resolved_type a)) a a' A) as ([K1 K1'] & K0 & K2 & K3).
    destruct (K3 LA) as (T & C & C' & S). destruct K2 as [_ K2]. specialize (K2 LA). cbv zeta. rewrite <- K1.
    assert (Q : forall i t, straight i ->
      alike (mkexpr (code (cast_expr (perform_integer_promotions (resolved_type a)) a) ++ [i]) t None)
            (mkexpr (code (cast_expr (perform_integer_promotions (resolved_type a)) a') ++ [i]) t None) /\
      (@None lit <> None -> @None lit <> None) /\
      (@None lit = None -> exists T, code (cast_expr (perform_integer_promotions (resolved_type a)) a) ++ [i] = code a ++ T /\
         code (cast_expr (perform_integer_promotions (resolved_type a)) a') ++ [i] = code a' ++ T /\ Forall straight T)).
    { intros i t Si. split; [split; reflexivity|]. split; [auto|]. intros _. exists (T ++ [i]).
      rewrite C, C', !app_assoc. split; [reflexivity|]. split; [reflexivity|]. apply Forall_app. split; [exact S|]. constructor; [exact Si|constructor]. }
    destruct o; try (apply Q; exact I).
    split; [split; assumption|]. split; [congruence|]. intros _. exists T. auto.
Qed.

(* ------------------------------------------------------------------ *)
(** ** Types and constants *)

Lemma obind_inv : forall A B (x : outcome A) (f : A -> outcome B) b, obind x f = Done b -> exists a, x = Done a /\ f a = Done b.
Proof. intros A B x f b H. destruct x; cbn in H; try discriminate. eauto. Qed.

Definition lit_typed (e : expr) : Prop := forall l, literal e = Some l -> lty l = resolved_type e.

Lemma literal_expr_typed : forall l, lit_typed (literal_expr l).
Proof. intros l r H. cbn in *. congruence. Qed.
Lemma code_typed : forall c t, lit_typed (mkexpr c t None).
Proof. intros c t l H. discriminate. Qed.

Lemma converted_type : forall op rt a b e, converted op rt a b = Done e ->
  resolved_type e = rt (usual_int (resolved_type a) (resolved_type b)) /\ literal e = None.
Proof.
  intros op rt a b e H. unfold converted in H. rewrite usual_int_eq in H.
  destruct (push_cast_expr true _ a) as [a1 ca]. destruct (push_cast_expr false _ b) as [b1 cb]. injection H as <-. split; reflexivity.
Qed.

Lemma perform_type : forall o l r q, perform_integer_operation o l r = Done q -> lty q = usual_int (lty l) (lty r).
Proof.
  intros o l r q H. unfold perform_integer_operation in H. rewrite usual_int_eq in H.
  destruct (usual_int (lty l) (lty r)); try discriminate; apply obind_inv in H; destruct H as (p & _ & H); injection H as <-; reflexivity.
Qed.

(** The operator gives a type and is a literal only if both operands are. *)
Definition typed2 (f : expr -> expr -> outcome expr) (rt : ity -> ity -> ity) : Prop :=
  forall a b e, lit_typed a -> lit_typed b -> f a b = Done e ->
  resolved_type e = rt (resolved_type a) (resolved_type b) /\ lit_typed e /\
  (literal a = None \/ literal b = None -> literal e = None) /\ (literal e = None -> literal a = None \/ literal b = None).

Lemma typed2_of : forall f rt op res fold,
  (forall a b, f a b = match literal a, literal b with
     | Some l, Some r => obind (fold l r) (fun q => Done (literal_expr q)) | _, _ => converted op res a b end) ->
  (forall t u, rt t u = res (usual_int t u)) ->
  (forall l r q, fold l r = Done q -> lty q = rt (lty l) (lty r)) -> typed2 f rt.
Proof.
  intros f rt op res fold F R Q a b e A B H. rewrite F in H.
  assert (K : literal a = None \/ literal b = None -> converted op res a b = Done e ->
     resolved_type e = rt (resolved_type a) (resolved_type b) /\ lit_typed e /\
     (literal a = None \/ literal b = None -> literal e = None) /\ (literal e = None -> literal a = None \/ literal b = None)).
  { intros N C. destruct (converted_type _ _ _ _ _ C) as [T L]. rewrite R. split; [exact T|]. split; [intros l E; congruence|]. tauto. }
  destruct (literal a) as [l|] eqn:LA; [destruct (literal b) as [r|] eqn:LB|]; [|apply K; auto|apply K; auto].
  apply obind_inv in H. destruct H as (q & E & H). injection H as <-. apply Q in E.
  split; [cbn; rewrite E, (A l LA), (B r LB); reflexivity|]. split; [apply literal_expr_typed|].
  split; [intros [?|?]; discriminate|discriminate].
Qed.

Lemma arith_typed : forall o, typed2 (lower_arith o) usual_int.
Proof. intro o. eapply typed2_of; [reflexivity|reflexivity|]. intros l r q. apply perform_type. Qed.
Lemma cmp_typed : forall o, typed2 (lower_cmp o) (fun _ _ => S32).
Proof.
  intro o. eapply typed2_of; [reflexivity|reflexivity|]. intros l r q H. unfold fold_cmp in H. apply obind_inv in H.
  destruct H as (x & _ & H). injection H as <-. reflexivity.
Qed.
Lemma bit_typed : forall o, typed2 (lower_bit o) usual_int.
Proof.
  intro o. eapply typed2_of; [reflexivity|reflexivity|]. intros l r q H. unfold fold_bit in H. rewrite usual_int_eq in H. injection H as <-. reflexivity.
Qed.
Lemma push_type : forall lhs t a x k, push_cast_expr lhs t a = (x, k) -> resolved_type x = t.
Proof.
  intros lhs t a x k H. destruct (push_parts lhs t a a (alike_refl a)) as (? & ? & ? & y & ? & E & _ & _ & _ & _ & _ & _ & R & _).
  rewrite H in E. injection E as <- <-. exact R.
Qed.
Lemma shift_typed : forall left, typed2 (lower_shift left) (fun t _ => promote t).
Proof.
  intros left a b e A B H. unfold lower_shift in H.
  destruct (literal a) as [l|] eqn:LA; [destruct (literal b) as [r|] eqn:LB|].
  { apply obind_inv in H. destruct H as (q & E & H). injection H as <-.
    assert (T : lty q = promote (lty l)).
    { unfold fold_shift in E. rewrite push_cast_ty, promotions_eq in E.
      destruct (_ && _); [discriminate|]. destruct (_ >? _); [discriminate|]. cbv zeta in E.
      destruct (_ >=? _); [discriminate|]. destruct left; injection E as <-; cbn [lty]; rewrite push_cast_ty, promotions_eq; reflexivity. }
    split; [cbn; rewrite T, (A l LA); reflexivity|]. split; [apply literal_expr_typed|]. split; [intros [?|?]; discriminate|discriminate]. }
  all: destruct (push_cast_expr true _ a) as [a1 ca] eqn:Ea; apply push_type in Ea; rewrite promotions_eq in Ea;
    destruct (push_cast_expr false _ b) as [b1 cb];
    destruct (match literal b1 with Some _ => _ | None => _ end); [discriminate|];
    destruct (push_cast_expr false U8 b1) as [b2 cb8]; cbv zeta in H; injection H as <-;
    (split; [exact Ea|]); (split; [apply code_typed|]); split; auto.
Qed.

Lemma promotion_literal_type : forall l, lty (perform_integer_promotion_on_literal l) = promote (lty l).
Proof. intros [t p]. destruct t; reflexivity. Qed.

Lemma cast_typed : forall t a, lit_typed a -> lit_typed (cast_expr t a).
Proof.
  intros t a A l H. destruct (cast_parts t a a (alike_refl a)) as (_ & R & _). rewrite R.
  unfold cast_expr, push_cast_expr in H. destruct (ity_eqb_spec (resolved_type a) t) as [E|E].
  - cbn in H. rewrite (A l H). exact E.
  - destruct (literal a) as [l0|]; cbn in H; [|discriminate]. injection H as <-. apply push_cast_ty.
Qed.

Lemma un_typed : forall o a e, lit_typed a -> lower_un o a = Done e ->
  resolved_type e = match o with OLNot => S32 | _ => promote (resolved_type a) end /\ lit_typed e /\ (literal e = None <-> literal a = None).
Proof.
  intros o a e A H. unfold lower_un in H. destruct (literal a) as [l|] eqn:LA.
  - apply obind_inv in H. destruct H as (q & E & H). injection H as <-.
    split; [|split; [apply literal_expr_typed|cbn; split; discriminate]].
    cbn [resolved_type literal_expr]. rewrite <- (A l LA).
    destruct o; cbn [fold_un] in E; injection E as <-; cbn [lty]; auto using promotion_literal_type.
  - unfold promotion_cast in H.
    destruct (cast_parts (perform_integer_promotions (resolved_type a)) a a (alike_refl a)) as (_ & R & N & _).
    rewrite promotions_eq in *. cbv zeta in H.
    destruct o; injection H as <-; cbn [resolved_type literal]; rewrite ?R; (split; [reflexivity|]); (split; [try apply code_typed|tauto]).
    intros l E. destruct N as [_ N]. rewrite (N LA) in E. discriminate.
Qed.

Section Shape.
Variable first : nat.
Variable ty : nat -> ity.
Notation generate := (generate first ty).

Ltac gen_inv H :=
  repeat match type of H with
         | obind (let '(x, y) := ?p in _) _ = _ => destruct p as [? ?]
         | obind _ _ = Done _ => apply obind_inv in H; let p := fresh "p" in let E := fresh "E" in destruct H as (p & E & H); try (destruct p as [? ?])
         end.

Theorem generate_typed : forall e c q c', generate e c = Done (q, c') -> resolved_type q = btype ty e /\ lit_typed q.
Proof.
  induction e as [t0 p|x|o a IHa|t0 a IHa|o a IHa b IHb|o a IHa b IHb|o a IHa b IHb|a IHa b IHb|a IHa b IHb|a IHa b IHb|a IHa b IHb|a IHa b IHb|x IHx a IHa b IHb];
    intros c q c' H; cbn [BranchModel.generate btype] in *.
  - injection H as <- <-. split; [reflexivity|apply literal_expr_typed].
  - injection H as <- <-. split; [reflexivity|apply code_typed].
  - gen_inv H. injection H as <- <-. destruct (IHa _ _ _ E) as [T L]. destruct (un_typed o _ _ L E0) as (R & LT & _).
    split; [|exact LT]. rewrite R, T. destruct o; reflexivity.
  - gen_inv H. injection H as <- <-. destruct (IHa _ _ _ E) as [T L]. split; [|apply cast_typed, L].
    apply (cast_parts t0 e e (alike_refl e)).
  - gen_inv H. injection H as <- <-. destruct (IHa _ _ _ E) as [T L]. destruct (IHb _ _ _ E0) as [T' L'].
    destruct (arith_typed o _ _ _ L L' E1) as (R & LT & _). split; [congruence|exact LT].
  - gen_inv H. injection H as <- <-. destruct (IHa _ _ _ E) as [T L]. destruct (IHb _ _ _ E0) as [T' L'].
    destruct (cmp_typed o _ _ _ L L' E1) as (R & LT & _). split; [congruence|exact LT].
  - gen_inv H. injection H as <- <-. destruct (IHa _ _ _ E) as [T L]. destruct (IHb _ _ _ E0) as [T' L'].
    destruct (bit_typed o _ _ _ L L' E1) as (R & LT & _). split; [congruence|exact LT].
  - gen_inv H. injection H as <- <-. destruct (IHa _ _ _ E) as [T L]. destruct (IHb _ _ _ E0) as [T' L'].
    destruct (shift_typed true _ _ _ L L' E1) as (R & LT & _). split; [congruence|exact LT].
  - gen_inv H. injection H as <- <-. destruct (IHa _ _ _ E) as [T L]. destruct (IHb _ _ _ E0) as [T' L'].
    destruct (shift_typed false _ _ _ L L' E1) as (R & LT & _). split; [congruence|exact LT].
  - gen_inv H. injection H as <- <-. destruct (IHb _ _ _ E0) as [T' L']. split; [exact T'|apply code_typed].
  - gen_inv H. unfold lower_and in H. destruct (literal e) as [l|]; [destruct (literal e0) as [r|]|].
    + unfold fold_land in H. cbn [obind] in H. injection H as <- <-. split; [reflexivity|apply literal_expr_typed].
    + injection H as <- <-. split; [reflexivity|apply code_typed].
    + injection H as <- <-. split; [reflexivity|apply code_typed].
  - gen_inv H. unfold lower_or in H. destruct (literal e) as [l|]; [destruct (literal e0) as [r|]|].
    + unfold fold_lor in H. cbn [obind] in H. injection H as <- <-. split; [reflexivity|apply literal_expr_typed].
    + injection H as <- <-. split; [reflexivity|apply code_typed].
    + injection H as <- <-. split; [reflexivity|apply code_typed].
  - apply obind_inv in H. destruct H as ([x1 c1] & E & H). destruct (literal x1) as [l|].
    + gen_inv H. destruct (IHa _ _ _ E0) as [T L]. destruct (IHb _ _ _ E1) as [T' L'].
      unfold select_branch in H. rewrite usual_int_eq in H. injection H as <- <-. rewrite T, T'. split.
      * eapply (cast_parts _ _ _ (alike_refl _)).
      * apply cast_typed. destruct (negb _); assumption.
    + gen_inv H. destruct (IHa _ _ _ E0) as [T L]. destruct (IHb _ _ _ E1) as [T' L'].
      unfold lower_conditional in H. rewrite usual_int_eq in H.
      destruct (push_cast_expr false _ e) as [a1 ka] eqn:Ea. destruct (push_cast_expr false _ e0) as [b1 kb] eqn:Eb.
      injection H as <- <-. cbn [resolved_type]. split; [|apply code_typed]. apply push_type in Ea. congruence.
Qed.

Theorem generate_const : forall e c q c', generate e c = Done (q, c') -> bconstant e = false -> literal q = None.
Proof.
  induction e as [t0 p|x|o a IHa|t0 a IHa|o a IHa b IHb|o a IHa b IHb|o a IHa b IHb|a IHa b IHb|a IHa b IHb|a IHa b IHb|a IHa b IHb|a IHa b IHb|x IHx a IHa b IHb];
    intros c q c' H K; cbn [BranchModel.generate bconstant] in *.
  - discriminate.
  - injection H as <- <-. reflexivity.
  - gen_inv H. injection H as <- <-. destruct (generate_typed _ _ _ _ E) as [_ L]. destruct (un_typed o _ _ L E0) as (_ & _ & N).
    apply N. eapply IHa; eassumption.
  - gen_inv H. injection H as <- <-. destruct (cast_parts t0 e e (alike_refl e)) as (_ & _ & N & _). apply N. eapply IHa; eassumption.
  - gen_inv H. injection H as <- <-. destruct (generate_typed _ _ _ _ E) as [_ L]. destruct (generate_typed _ _ _ _ E0) as [_ L'].
    destruct (arith_typed o _ _ _ L L' E1) as (_ & _ & N & _). apply N. apply andb_false_iff in K. destruct K; [left; eapply IHa|right; eapply IHb]; eassumption.
  - gen_inv H. injection H as <- <-. destruct (generate_typed _ _ _ _ E) as [_ L]. destruct (generate_typed _ _ _ _ E0) as [_ L'].
    destruct (cmp_typed o _ _ _ L L' E1) as (_ & _ & N & _). apply N. apply andb_false_iff in K. destruct K; [left; eapply IHa|right; eapply IHb]; eassumption.
  - gen_inv H. injection H as <- <-. destruct (generate_typed _ _ _ _ E) as [_ L]. destruct (generate_typed _ _ _ _ E0) as [_ L'].
    destruct (bit_typed o _ _ _ L L' E1) as (_ & _ & N & _). apply N. apply andb_false_iff in K. destruct K; [left; eapply IHa|right; eapply IHb]; eassumption.
  - gen_inv H. injection H as <- <-. destruct (generate_typed _ _ _ _ E) as [_ L]. destruct (generate_typed _ _ _ _ E0) as [_ L'].
    destruct (shift_typed true _ _ _ L L' E1) as (_ & _ & N & _). apply N. apply andb_false_iff in K. destruct K; [left; eapply IHa|right; eapply IHb]; eassumption.
  - gen_inv H. injection H as <- <-. destruct (generate_typed _ _ _ _ E) as [_ L]. destruct (generate_typed _ _ _ _ E0) as [_ L'].
    destruct (shift_typed false _ _ _ L L' E1) as (_ & _ & N & _). apply N. apply andb_false_iff in K. destruct K; [left; eapply IHa|right; eapply IHb]; eassumption.
  - gen_inv H. injection H as <- <-. reflexivity.
  - gen_inv H. unfold lower_and in H. apply andb_false_iff in K. destruct (literal e) as [l|] eqn:LA; [destruct (literal e0) as [r|] eqn:LB|].
    + destruct K as [K|K]; [rewrite (IHa _ _ _ E K) in LA|rewrite (IHb _ _ _ E0 K) in LB]; discriminate.
    + injection H as <- <-. reflexivity.
    + injection H as <- <-. reflexivity.
  - gen_inv H. unfold lower_or in H. apply andb_false_iff in K. destruct (literal e) as [l|] eqn:LA; [destruct (literal e0) as [r|] eqn:LB|].
    + destruct K as [K|K]; [rewrite (IHa _ _ _ E K) in LA|rewrite (IHb _ _ _ E0 K) in LB]; discriminate.
    + injection H as <- <-. reflexivity.
    + injection H as <- <-. reflexivity.
  - apply obind_inv in H. destruct H as ([x1 c1] & E & H). destruct (literal x1) as [l|] eqn:LX.
    + gen_inv H. apply andb_false_iff in K. destruct K as [K|K]; [rewrite (IHx _ _ _ E K) in LX; discriminate|].
      apply orb_false_iff in K. destruct K as [Ka Kb]. unfold select_branch in H. rewrite usual_int_eq in H. injection H as <- <-.
      eapply (cast_parts _ _ _ (alike_refl _)). destruct (negb _); [eapply IHa|eapply IHb]; eassumption.
    + gen_inv H. unfold lower_conditional in H. rewrite usual_int_eq in H.
      destruct (push_cast_expr false _ e) as [a1 ka]. destruct (push_cast_expr false _ e0) as [b1 kb].
      injection H as <- <-. reflexivity.
Qed.

(** ** Labels and variables *)
Notation variable_of := (variable_of first).

Definition grows (c c' : counters) : Prop :=
  (next_label c <= next_label c')%nat /\ exists new, unnamed c' = unnamed c ++ new.
Definition shaped (c c' : counters) (q : expr) : Prop :=
  grows c c' /\ NoDup (labels (emit q)) /\
  (forall k, In k (labels (emit q)) -> (next_label c <= k < next_label c')%nat) /\
  Forall (below (variable_of c')) (emit q).

Lemma grows_refl : forall c, grows c c.
Proof. intro c. split; [lia|]. exists []. symmetry. apply app_nil_r. Qed.
Lemma grows_trans : forall a b c, grows a b -> grows b c -> grows a c.
Proof. intros a b c [A [x X]] [B [y Y]]. split; [lia|]. exists (x ++ y). rewrite Y, X, app_assoc. reflexivity. Qed.
Lemma grows_variable : forall a b, grows a b -> (variable_of a <= variable_of b)%nat.
Proof. intros a b [_ [x X]]. unfold BranchModel.variable_of. rewrite X, app_length. lia. Qed.
Lemma grows_label : forall c, grows c (new_label c).
Proof. intro c. split; [cbn; lia|]. exists []. symmetry. apply app_nil_r. Qed.
Lemma grows_new : forall t c, grows c (new_variable t c).
Proof. intros t c. split; [cbn; lia|]. exists [t]. reflexivity. Qed.

Lemma below_mono : forall a b c, (a <= b)%nat -> Forall (below a) c -> Forall (below b) c.
Proof. intros a b c H F. eapply Forall_impl; [|exact F]. intros i. destruct i; cbn; auto. lia. Qed.

Lemma shaped_mono : forall c c1 c2 q, shaped c c1 q -> grows c1 c2 -> shaped c c2 q.
Proof.
  intros c c1 c2 q (G & N & R & B) G2. split; [eapply grows_trans; eassumption|]. split; [exact N|]. split.
  - intros k K. apply R in K. destruct G2 as [G2 _]. lia.
  - eapply below_mono; [apply grows_variable, G2|exact B].
Qed.
Lemma shaped_from : forall c c1 c2 q, grows c c1 -> shaped c1 c2 q -> shaped c c2 q.
Proof.
  intros c c1 c2 q G1 (G & N & R & B). split; [eapply grows_trans; eassumption|]. split; [exact N|]. split; [|exact B].
  intros k K. apply R in K. destruct G1 as [G1 _]. lia.
Qed.

Lemma part_same : forall a p p', part a a p p' -> labels p = labels (emit a) /\ (forall hi, Forall (below hi) (emit a) -> Forall (below hi) p).
Proof.
  intros a p p' H. unfold part, emit in *. destruct (literal a) as [l|].
  - destruct H as [_ [l' ->]]. split; [reflexivity|]. intros hi _. repeat constructor.
  - destruct H as [-> _]. auto.
Qed.

Lemma nodup_two : forall (x y : list nat) a b c, NoDup x -> NoDup y ->
  (forall k, In k x -> (a <= k < b)%nat) -> (forall k, In k y -> (b <= k < c)%nat) -> NoDup (x ++ y).
Proof.
  intros x y a b c X Y Hx Hy. induction x as [|k x IH]; [exact Y|]. cbn. inversion_clear X as [|? ? K Z]. constructor.
  - rewrite in_app_iff. intros [K'|K']; [tauto|]. apply Hy in K'. specialize (Hx k (or_introl eq_refl)). lia.
  - apply IH; [exact Z|]. intros j J. apply Hx. right. exact J.
Qed.

Lemma nodup_disjoint : forall (x y : list nat), NoDup x -> NoDup y -> (forall k, In k x -> ~ In k y) -> NoDup (x ++ y).
Proof.
  intros x y X Y H. induction x as [|k x IH]; [exact Y|]. cbn. inversion_clear X as [|? ? K Z]. constructor.
  - rewrite in_app_iff. intros [K'|K']; [tauto|]. exact (H k (or_introl eq_refl) K').
  - apply IH; [exact Z|]. intros j J. apply H. right. exact J.
Qed.

Lemma literal_shaped : forall c c' l, grows c c' -> shaped c c' (literal_expr l).
Proof. intros c c' l G. split; [exact G|]. cbn. split; [constructor|]. split; [tauto|]. repeat constructor. Qed.

Lemma literal_shaped' : forall c c' q, literal q <> None -> grows c c' -> shaped c c' q.
Proof.
  intros c c' q L G. split; [exact G|]. unfold emit. destruct (literal q); [|congruence]. cbn. split; [constructor|]. split; [tauto|]. repeat constructor.
Qed.

Lemma shaped2 : forall f c c1 c2 a b e, tail2 f -> shaped c c1 a -> shaped c1 c2 b -> f a b = Done e -> shaped c c2 e.
Proof.
  intros f c c1 c2 a b e F A B H. specialize (F a b a b (alike_refl a) (alike_refl b)). rewrite H in F. destruct F as [_ F].
  assert (G : grows c c2) by (eapply grows_trans; [apply A|apply B]).
  destruct (literal e) as [l|] eqn:L; [apply literal_shaped'; congruence|].
  destruct (F eq_refl) as (pa & pb & pa' & pb' & T & C & _ & Pa & Pb & S).
  apply part_same in Pa. apply part_same in Pb. destruct Pa as [La Ba]. destruct Pb as [Lb Bb].
  destruct A as (Ga & Na & Ra & Fa). destruct B as (Gb & Nb & Rb & Fb).
  split; [exact G|]. unfold emit. rewrite L, C, !labels_app, La, Lb, (straight_labels T S), app_nil_r.
  split; [eapply nodup_two; eassumption|]. split.
  - intros k K. apply in_app_iff in K. destruct Ga as [Ga _]. destruct Gb as [Gb _]. destruct K as [K|K]; [apply Ra in K|apply Rb in K]; lia.
  - apply Forall_app. split; [apply Ba; eapply below_mono; [apply grows_variable, Gb|exact Fa]|].
    apply Forall_app. split; [apply Bb, Fb|apply straight_below, S].
Qed.

Lemma shaped1 : forall f c c1 a e, tail1 f -> shaped c c1 a -> f a = Done e -> shaped c c1 e.
Proof.
  intros f c c1 a e F A H. specialize (F a a (alike_refl a)). rewrite H in F. destruct F as (_ & LL & F).
  destruct (literal e) as [l|] eqn:L; [apply literal_shaped'; [congruence|apply A]|].
  assert (LA : literal a = None) by (destruct (literal a); [exfalso; apply LL; congruence|reflexivity]).
  destruct (F eq_refl) as (T & C & _ & S). destruct A as (Ga & Na & Ra & Fa). unfold emit in Na, Ra, Fa. rewrite LA in Na, Ra, Fa.
  split; [exact Ga|]. unfold emit. rewrite L, C, !labels_app, (straight_labels T S), app_nil_r. split; [exact Na|]. split; [exact Ra|].
  apply Forall_app. split; [exact Fa|apply straight_below, S].
Qed.

Lemma emit_none : forall c t, emit (mkexpr c t None) = c.
Proof. reflexivity. Qed.

Lemma labels_cons : forall i c, labels (i :: c) = (match i with Jump_label k => [k] | _ => [] end) ++ labels c.
Proof. reflexivity. Qed.

Lemma set_labels : forall x v, labels (set_temporary x v) = [].
Proof. reflexivity. Qed.

(** The labels of [&&], [||]: operand, operand, first label, second label. *)
Lemma nodup_logical : forall la lb (n0 n1 n2 : nat), NoDup la -> NoDup lb -> (n0 <= n1)%nat -> (S n1 <= n2)%nat ->
  (forall k, In k la -> (n0 <= k < n1)%nat) -> (forall k, In k lb -> (S n1 <= k < n2)%nat) ->
  NoDup (la ++ lb ++ [n1; n2]) /\ (forall k, In k (la ++ lb ++ [n1; n2]) -> (n0 <= k < S n2)%nat).
Proof.
  intros la lb n0 n1 n2 A B H1 H2 Ra Rb. split.
  - assert (Q : NoDup (lb ++ [n1; n2])).
    { clear A Ra. induction lb as [|k lb IH]; cbn.
      - repeat constructor; cbn; lia.
      - inversion_clear B as [|? ? K Z]. constructor.
        + rewrite in_app_iff. specialize (Rb k (or_introl eq_refl)). cbn. intros [?|[?|[?|[]]]]; [tauto|lia|lia].
        + apply IH; [exact Z|]. intros j J. apply Rb. right. exact J. }
    apply (nodup_two la (lb ++ [n1; n2]) n0 n1 (S n2)); [exact A|exact Q|exact Ra|].
    intros k K. apply in_app_iff in K. cbn in K. destruct K as [K|[K|[K|[]]]]; [apply Rb in K|subst|subst]; lia.
  - intros k K. rewrite !in_app_iff in K. cbn in K. destruct K as [K|[K|[K|[K|[]]]]]; [apply Ra in K|apply Rb in K|subst|subst]; lia.
Qed.

Lemma set_below : forall hi x v, (x < hi)%nat -> Forall (below hi) (set_temporary x v).
Proof. intros. repeat constructor. assumption. Qed.

Lemma logical_shaped : forall c c1 c2 a b on x y,
  shaped c c1 a -> shaped (new_label c1) c2 b ->
  shaped c (new_label (new_variable S32 c2))
    (mkexpr (emit a ++ [Jump_if on (next_label c1)] ++ emit b ++ [Jump_if on (next_label c1)] ++ set_temporary (variable_of c2) x ++ [Jump (next_label c2)] ++
       [Jump_label (next_label c1)] ++ set_temporary (variable_of c2) y ++ [Jump_label (next_label c2)] ++ [Identifier (variable_of c2)]) S32 None).
Proof.
  intros c c1 c2 a b on x y A B.
  assert (G : grows c2 (new_label (new_variable S32 c2))) by (eapply grows_trans; [apply grows_new|apply grows_label]).
  destruct A as (Ga & Na & Ra & Fa). destruct B as (Gb & Nb & Rb & Fb).
  assert (Gab : grows c c2) by (eapply grows_trans; [exact Ga|]; eapply grows_trans; [apply grows_label|exact Gb]).
  assert (V : (variable_of c2 < variable_of (new_label (new_variable S32 c2)))%nat) by (unfold BranchModel.variable_of; cbn; rewrite app_length; cbn; lia).
  split; [eapply grows_trans; eassumption|]. rewrite !emit_none.
  rewrite !labels_app, !set_labels. change (labels [Jump_if on (next_label c1)]) with (@nil nat). change (labels [Jump (next_label c2)]) with (@nil nat).
  change (labels [Jump_label (next_label c1)]) with [next_label c1]. change (labels [Jump_label (next_label c2)]) with [next_label c2].
  change (labels [Identifier (variable_of c2)]) with (@nil nat). cbn [app].
  destruct (nodup_logical (labels (emit a)) (labels (emit b)) (next_label c) (next_label c1) (next_label c2)) as [N R]; auto.
  { apply Ga. } { apply Gb. }
  split; [exact N|]. split; [exact R|].
  assert (Fa' : Forall (below (variable_of (new_label (new_variable S32 c2)))) (emit a)).
  { eapply below_mono; [|exact Fa]. apply grows_variable in Gb. change (variable_of (new_label c1)) with (variable_of c1) in Gb. lia. }
  assert (Fb' : Forall (below (variable_of (new_label (new_variable S32 c2)))) (emit b)) by (eapply below_mono; [|exact Fb]; lia).
  repeat first [assumption | exact I | exact V | apply set_below; exact V | apply Forall_app; split | apply Forall_cons | apply Forall_nil].
Qed.

Lemma push_shape : forall lhs t a x k, push_cast_expr lhs t a = (x, k) ->
  labels (emit x) = labels (emit a) /\ (forall hi, Forall (below hi) (emit a) -> Forall (below hi) (emit x)) /\ Forall straight k.
Proof.
  intros lhs t a x k H. destruct (push_parts lhs t a a (alike_refl a)) as (p & p' & k0 & y & y' & E & _ & Ep & _ & P & S & _).
  rewrite H in E. injection E as <- <-. apply part_same in P. rewrite <- Ep in P. destruct P. auto.
Qed.

Lemma conditional_shaped : forall c c1 c2 c3 x a b q c', shaped c c1 x -> shaped (new_label c1) c2 a -> shaped (new_label c2) c3 b ->
  lower_conditional first x a b (next_label c1) (next_label c2) c3 = Done (q, c') -> shaped c c' q.
Proof.
  intros c c1 c2 c3 x a b q c' X A B H. unfold lower_conditional in H. rewrite usual_int_eq in H.
  destruct (push_cast_expr false _ a) as [a1 ka] eqn:Ea. destruct (push_cast_expr false _ b) as [b1 kb] eqn:Eb.
  apply push_shape in Ea. apply push_shape in Eb. destruct Ea as (La & Ba & Sa). destruct Eb as (Lb & Bb & Sb).
  set (larger := if _ <? _ then _ else _) in H. clearbody larger. cbv zeta in H.
  assert (Kk : Forall straight (match ka with [] => [Nop] | _ => ka end)) by (destruct ka; [repeat constructor|exact Sa]).
  assert (Km : Forall straight (match ka with [] => [] | _ => [Nop] end)) by (destruct ka; repeat constructor).
  set (kept := match ka with [] => [Nop] | _ => ka end) in *. set (moved := match ka with [] => [] | _ => [Nop] end) in *. clearbody kept moved.
  match type of H with Done (?u, ?w) = _ => assert (E1 : q = u /\ c' = w) by (split; congruence) end. destruct E1 as [-> ->]. clear H.
  destruct X as (Gx & Nx & Rx & Fx). destruct A as (Ga & Na & Ra & Fa). destruct B as (Gb & Nb & Rb & Fb).
  assert (G : grows c c3).
  { eapply grows_trans; [exact Gx|]. eapply grows_trans; [apply grows_label|]. eapply grows_trans; [exact Ga|]. eapply grows_trans; [apply grows_label|exact Gb]. }
  assert (V : (variable_of c3 < variable_of (new_variable larger c3))%nat) by (unfold BranchModel.variable_of; cbn; rewrite app_length; cbn; lia).
  split; [eapply grows_trans; [exact G|apply grows_new]|].
  assert (LL : labels (emit x) ++ labels (emit a) ++ [next_label c1] ++ labels (emit b) ++ [next_label c2] = labels (emit
    (mkexpr (emit x ++ [Jump_if false (next_label c1)] ++
                    [Identifier (variable_of c3)] ++ emit a1 ++ kept ++ [Store; Pop_expression] ++ [Jump (next_label c2)] ++
                    [Jump_label (next_label c1)] ++ [Identifier (variable_of c3)] ++ emit b1 ++ moved ++ kb ++ [Store; Pop_expression] ++
                    [Jump_label (next_label c2)] ++ [Identifier (variable_of c3)]) (resolved_type a1) None))).
  { rewrite emit_none, !labels_app, La, Lb, (straight_labels kept Kk), (straight_labels moved Km), (straight_labels kb Sb).
    cbn [labels flat_map app]. reflexivity. }
  rewrite <- LL. cbn in Ra, Rb. destruct Gx as [Gx _]. pose proof Ga as [Ga' _]. pose proof Gb as [Gb' _]. cbn in Ga', Gb'.
  split; [|split].
  - apply (nodup_two _ _ (next_label c) (next_label c1) (next_label c3)); [exact Nx| |exact Rx|].
    + apply nodup_disjoint; [exact Na| |].
      * cbn. constructor; [rewrite in_app_iff; cbn; intros [K|[K|[]]]; [apply Rb in K|]; lia|].
        apply nodup_disjoint; [exact Nb|repeat constructor; cbn; tauto|]. intros k K. apply Rb in K. cbn. lia.
      * intros k K. apply Ra in K. rewrite !in_app_iff. cbn. intros [[J|[]]|[J|[J|[]]]]; [|apply Rb in J|]; lia.
    + intros k K. rewrite !in_app_iff in K. cbn in K. destruct K as [K|[[K|[]]|[K|[K|[]]]]]; [apply Ra in K|subst|apply Rb in K|subst]; lia.
  - intros k K. rewrite !in_app_iff in K. cbn in K |- *.
    destruct K as [K|[K|[[K|[]]|[K|[K|[]]]]]]; [apply Rx in K|apply Ra in K|subst|apply Rb in K|subst]; lia.
  - assert (Fx' : Forall (below (variable_of (new_variable larger c3))) (emit x)).
    { eapply below_mono; [|exact Fx]. apply grows_variable in Ga, Gb.
      change (variable_of (new_label c1)) with (variable_of c1) in Ga. change (variable_of (new_label c2)) with (variable_of c2) in Gb. lia. }
    assert (Fa' : Forall (below (variable_of (new_variable larger c3))) (emit a1)).
    { apply Ba. eapply below_mono; [|exact Fa]. apply grows_variable in Gb. change (variable_of (new_label c2)) with (variable_of c2) in Gb. lia. }
    assert (Fb' : Forall (below (variable_of (new_variable larger c3))) (emit b1)) by (apply Bb; eapply below_mono; [|exact Fb]; lia).
    rewrite emit_none.
    repeat first [assumption | exact I | exact V | apply straight_below; assumption | apply Forall_app; split | apply Forall_cons | apply Forall_nil].
Qed.

Theorem generate_shaped : forall e c q c', variables_below first e -> generate e c = Done (q, c') -> shaped c c' q.
Proof.
  induction e as [t0 p|x|o a IHa|t0 a IHa|o a IHa b IHb|o a IHa b IHb|o a IHa b IHb|a IHa b IHb|a IHa b IHb|a IHa b IHb|a IHa b IHb|a IHa b IHb|x IHx a IHa b IHb];
    intros c q c' W H; cbn [BranchModel.generate variables_below] in *.
  - injection H as <- <-. apply literal_shaped, grows_refl.
  - injection H as <- <-. split; [apply grows_refl|]. cbn. split; [constructor|]. split; [tauto|]. repeat constructor. unfold BranchModel.variable_of. cbn. lia.
  - gen_inv H. injection H as <- <-. eapply shaped1; [apply (un_tail o)|eapply IHa; eassumption|exact E0].
  - gen_inv H. injection H as <- <-. eapply shaped1; [apply (cast_tail t0)|eapply IHa; eassumption|reflexivity].
  - gen_inv H. injection H as <- <-. eapply shaped2; [apply (arith_tail o)|eapply IHa; [apply W|eassumption]|eapply IHb; [apply W|eassumption]|exact E1].
  - gen_inv H. injection H as <- <-. eapply shaped2; [apply (cmp_tail o)|eapply IHa; [apply W|eassumption]|eapply IHb; [apply W|eassumption]|exact E1].
  - gen_inv H. injection H as <- <-. eapply shaped2; [apply (bit_tail o)|eapply IHa; [apply W|eassumption]|eapply IHb; [apply W|eassumption]|exact E1].
  - gen_inv H. injection H as <- <-. eapply shaped2; [apply (shift_tail true)|eapply IHa; [apply W|eassumption]|eapply IHb; [apply W|eassumption]|exact E1].
  - gen_inv H. injection H as <- <-. eapply shaped2; [apply (shift_tail false)|eapply IHa; [apply W|eassumption]|eapply IHb; [apply W|eassumption]|exact E1].
  - gen_inv H. injection H as <- <-. pose proof (IHa _ _ _ (proj1 W) E) as (Ga & Na & Ra & Fa). pose proof (IHb _ _ _ (proj2 W) E0) as (Gb & Nb & Rb & Fb).
    split; [eapply grows_trans; eassumption|]. rewrite !emit_none.
    assert (LL : labels (emit e ++ Pop_expression :: emit e0 ++ [Nop]) = labels (emit e) ++ labels (emit e0)).
    { rewrite labels_app, labels_cons, labels_app. cbn [app]. change (labels [Nop]) with (@nil nat). rewrite app_nil_r. reflexivity. }
    rewrite LL.
    split; [eapply nodup_two; eassumption|]. split.
    + intros k K. apply in_app_iff in K. destruct Ga as [Ga _]. destruct Gb as [Gb _]. destruct K as [K|K]; [apply Ra in K|apply Rb in K]; lia.
    + apply Forall_app. split; [eapply below_mono; [apply grows_variable, Gb|exact Fa]|].
      constructor; [exact I|]. apply Forall_app. split; [exact Fb|]. repeat constructor.
  - gen_inv H. pose proof (IHa _ _ _ (proj1 W) E) as A. pose proof (IHb _ _ _ (proj2 W) E0) as B.
    unfold lower_and in H. destruct (literal e) as [l|]; [destruct (literal e0) as [r|]|].
    + unfold fold_land in H. cbn [obind] in H. injection H as <- <-. apply literal_shaped.
      eapply grows_trans; [apply A|]. eapply grows_trans; [apply grows_label|apply B].
    + injection H as <- <-. apply logical_shaped; assumption.
    + injection H as <- <-. apply logical_shaped; assumption.
  - gen_inv H. pose proof (IHa _ _ _ (proj1 W) E) as A. pose proof (IHb _ _ _ (proj2 W) E0) as B.
    unfold lower_or in H. destruct (literal e) as [l|]; [destruct (literal e0) as [r|]|].
    + unfold fold_lor in H. cbn [obind] in H. injection H as <- <-. apply literal_shaped.
      eapply grows_trans; [apply A|]. eapply grows_trans; [apply grows_label|apply B].
    + injection H as <- <-. apply logical_shaped; assumption.
    + injection H as <- <-. apply logical_shaped; assumption.
  - destruct W as (Wx & Wa & Wb). apply obind_inv in H. destruct H as ([x1 c1] & E & H). pose proof (IHx _ _ _ Wx E) as X. destruct (literal x1) as [l|] eqn:LX.
    + gen_inv H. pose proof (IHa _ _ _ Wa E0) as A. pose proof (IHb _ _ _ Wb E1) as B.
      unfold select_branch in H. rewrite usual_int_eq in H. injection H as <- <-.
      assert (Q : shaped c c2 (if negb (integer_literal_as_u64 l =? 0) then e else e0)).
      { eapply shaped_from; [apply X|]. destruct (negb _); [eapply shaped_mono; [exact A|apply B]|eapply shaped_from; [apply A|exact B]]. }
      eapply shaped1; [apply cast_tail|exact Q|reflexivity].
    + gen_inv H. eapply conditional_shaped; [exact X|eapply IHa; eassumption|eapply IHb; eassumption|exact H].
Qed.
End Shape.
