(** The code of every integer expression gives each instruction the operands it needs. *)
From Coq Require Import List ZArith Bool Lia.
From Verif Require Import Base IntTypes CSpec IntModel LowerSpec LowerModel SelectModel.
From Verif Require IntProofs EmitModel EmitTotal TotalSteps.
Import ListNotations TotalSteps.
Open Scope Z_scope.

Definition sz (t : ity) : Z := bits t / 8.
Lemma sz_size : forall t, EmitModel.is_size (sz t) = true.
Proof. intros []; reflexivity. Qed.

Section Lower.
Variable offset : nat -> Z.
Variable ty : nat -> ity.
Variable offsets : forall x, EmitTotal.off_ok (- offset x).
Notation sel := (select_all offset (fun x => bits (ty x))).

Lemma sel_app : forall a b ja jb, sel a = Some ja -> sel b = Some jb -> sel (a ++ b) = Some (ja ++ jb).
Proof.
  induction a as [|i a IH]; intros b ja jb A B; cbn [app select_all] in A |- *; [injection A as <-; exact B|].
  destruct (select offset (fun x => bits (ty x)) i); [|discriminate]. destruct (sel a) as [js|]; [|discriminate]. injection A as <-. rewrite (IH b js jb eq_refl B). reflexivity.
Qed.
Lemma sel_length : forall a ja, sel a = Some ja -> length ja = length a.
Proof.
  induction a as [|i a IH]; intros ja A; cbn [select_all] in A; [injection A as <-; reflexivity|].
  destruct (select offset (fun x => bits (ty x)) i); [|discriminate]. destruct (sel a) as [js|]; [|discriminate]. injection A as <-. cbn. rewrite (IH js eq_refl). reflexivity.
Qed.

(** The code [c] pushes one operand; it has at most [n] instructions. *)
Definition pushes (n : nat) (c : list ir) (e : entry) : Prop :=
  (length c <= n)%nat /\ exists js, sel c = Some js /\ forall T, statics js T (e :: T).
Definition good (n : nat) (e : expr) : Prop :=
  (forall l, literal e = Some l -> lty l = resolved_type e) /\ exists b, pushes n (emit e) (sz (resolved_type e), b).

Definition put (lhs : bool) (c e : entry) (T : list entry) : list entry := if lhs then c :: e :: T else e :: T.

Lemma pushes_literal : forall l n, (1 <= n)%nat -> pushes n [Integer_literal l] (sz (lty l), true).
Proof.
  intros l n H. split; [exact H|]. eexists. split; [reflexivity|]. intro T. econstructor; [|constructor]. apply S_literal. apply sz_size.
Qed.
Lemma good_literal : forall l n, (1 <= n)%nat -> good n (literal_expr l).
Proof. intros l n H. split; [intros l' E; injection E as <-; reflexivity|]. exists true. apply pushes_literal, H. Qed.

Lemma cast_static : forall lhs what to, (length (cast_code lhs what to) <= 1)%nat /\ exists js, sel (cast_code lhs what to) = Some js /\
  forall b, exists b', forall c T, statics js (put lhs c (sz what, b) T) (put lhs c (sz to, b') T).
Proof.
  intros lhs what to. split; [destruct what, to; cbn; lia|].
  destruct what, to; (eexists; split; [reflexivity|]); intro b; destruct lhs; cbn [put];
    first [ exists b; intros c T; exact (Ss_nil _)
          | exists false; intros c T; econstructor; [|constructor]; first [apply S_bool|apply S_sign; [reflexivity|]|apply S_zero; [reflexivity|intro X; first [discriminate X|reflexivity]|]]; constructor; reflexivity
          | exists b; intros c T; econstructor; [|constructor]; apply S_truncate; [reflexivity|]; constructor; reflexivity ].
Qed.

(** A cast whose instructions are placed later. *)
Lemma push_good : forall n lhs t e, good n e -> (1 <= n)%nat ->
  let '(e', c) := push_cast_expr lhs t e in
  resolved_type e' = t /\ (forall l, literal e' = Some l -> lty l = t /\ c = []) /\ (literal e = None -> literal e' = None) /\
  exists k b b' js, pushes n (emit e') (k, b) /\ (length c <= 1)%nat /\ sel c = Some js /\ (literal e' <> None -> b' = true) /\
    forall x T, statics js (put lhs x (k, b) T) (put lhs x (sz t, b') T).
Proof.
  intros n lhs t e (L & b & P) Hn. unfold push_cast_expr. destruct (ity_eqb (resolved_type e) t) eqn:E.
  - assert (resolved_type e = t) by (destruct (resolved_type e), t; cbn in E; try discriminate; reflexivity). subst t.
    split; [reflexivity|]. split; [intros l X; split; [apply L, X|reflexivity]|]. split; [auto|].
    destruct (literal e) as [l|] eqn:El.
    + exists (sz (resolved_type e)), true, true, []. unfold emit. rewrite El. split; [rewrite <- (L l eq_refl); apply pushes_literal, Hn|]. split; [cbn; lia|]. split; [reflexivity|]. split; [auto|]. intros; constructor.
    + exists (sz (resolved_type e)), b, b, []. split; [exact P|]. split; [cbn; lia|]. split; [reflexivity|]. split; [congruence|]. intros; constructor.
  - destruct (literal e) as [l|] eqn:El.
    + cbn [resolved_type literal]. assert (T : lty (push_cast t l) = t) by (apply IntProofs.push_cast_ty).
      split; [reflexivity|]. split; [intros l' X; injection X as <-; auto|]. split; [discriminate|].
      exists (sz t), true, true, []. cbn [emit literal]. split; [|split; [cbn; lia|split; [reflexivity|split; [auto|intros; constructor]]]].
      unfold emit. cbn [literal]. rewrite <- T at 2. apply pushes_literal, Hn.
    + cbn [resolved_type literal]. split; [reflexivity|]. split; [discriminate|]. split; [reflexivity|].
      destruct (cast_static lhs (resolved_type e) t) as (Lc & js & Sj & F). destruct (F b) as (b' & F').
      exists (sz (resolved_type e)), b, b', js. unfold emit in P |- *. rewrite El in P. cbn [literal code]. split; [exact P|]. split; [exact Lc|]. split; [exact Sj|]. split; [congruence|]. intros x T. apply F'.
Qed.

Lemma cast_good : forall n t e, good n e -> (1 <= n)%nat -> good (S n) (cast_expr t e).
Proof.
  intros n t e G Hn. pose proof (push_good n false t e G Hn) as P. unfold cast_expr. destruct (push_cast_expr false t e) as (e', c).
  destruct P as (Rt & Li & _ & k & b & b' & js & (Ln & j1 & S1 & F1) & Lc & S2 & Hb & F2).
  split; cbn [literal resolved_type].
  - intros l El. rewrite Rt. apply Li, El.
  - exists b'. rewrite Rt. unfold emit in *. cbn [literal code]. destruct (literal e') as [l|] eqn:El.
    + destruct (Li l eq_refl) as (Tl & ->). rewrite (Hb ltac:(discriminate)). rewrite <- Tl. apply pushes_literal. lia.
    + split; [rewrite app_length; lia|]. exists (j1 ++ js). split; [apply sel_app; assumption|]. intro T. eapply statics_app; [apply F1|]. apply (F2 (0, false) T).
Qed.

Definition arithmetic (t : ity) : Prop := t = S32 \/ t = U32 \/ t = S64 \/ t = U64.
Lemma arithmetic_usual : forall a b t, usual_conversions_int a b = Some t -> arithmetic t.
Proof. intros a b t H. unfold arithmetic. destruct a, b; cbn in H; injection H as <-; tauto. Qed.
Lemma arithmetic_promotions : forall t, arithmetic (perform_integer_promotions t).
Proof. intros []; unfold arithmetic; cbn; tauto. Qed.

Lemma converted_good : forall na nb op rt a b q, good na a -> good nb b -> (1 <= na)%nat -> (1 <= nb)%nat ->
  (forall t, arithmetic t -> exists j, sel [op t] = Some [j] /\ forall x y T, fst x = sz t -> fst y = sz t -> static j (y :: x :: T) ((sz (rt t), false) :: T)) ->
  converted op rt a b = Done q -> good (na + nb + 3) q.
Proof.
  intros na nb op rt a b q Ga Gb Ha Hb Op H. unfold converted in H. destruct (usual_conversions_int (resolved_type a) (resolved_type b)) as [t|] eqn:Et; [|discriminate].
  destruct (Op t (arithmetic_usual _ _ _ Et)) as (j & Sj & Fj).
  pose proof (push_good na true t a Ga Ha) as Pa. pose proof (push_good nb false t b Gb Hb) as Pb.
  destruct (push_cast_expr true t a) as (a', ca). destruct (push_cast_expr false t b) as (b', cb). injection H as <-.
  destruct Pa as (_ & _ & _ & ka & ba & ba' & ja & (La & ja0 & Sa0 & Fa0) & Lca & Sa & _ & Fa).
  destruct Pb as (_ & _ & _ & kb & bb & bb' & jb & (Lb & jb0 & Sb0 & Fb0) & Lcb & Sb & _ & Fb).
  split; [discriminate|]. exists false. unfold emit at 1. cbn [literal code resolved_type].
  split; [rewrite !app_length; cbn [length]; lia|].
  exists (ja0 ++ jb0 ++ ja ++ jb ++ [j]). split; [repeat apply sel_app; assumption|]. intro T.
  eapply statics_app; [apply Fa0|]. eapply statics_app; [apply Fb0|]. eapply statics_app; [apply (Fa (kb, bb) T)|].
  eapply statics_app; [apply (Fb (0, false) ((sz t, ba') :: T))|]. econstructor; [apply Fj; reflexivity|constructor].
Qed.

Lemma arith_static : forall o t, arithmetic t -> exists j, sel [arith_kind o t] = Some [j] /\ forall x y T, fst x = sz t -> fst y = sz t -> static j (y :: x :: T) ((sz t, false) :: T).
Proof.
  intros o t [->|[->|[->| ->]]]; destruct o; (eexists; split; [reflexivity|]); intros x y T Hx Hy; rewrite <- Hx;
    first [ apply S_mul | apply S_div | apply S_mod | apply S_simple; [cbn; tauto| |congruence] ]; unfold word; rewrite Hx; unfold sz; cbn; tauto.
Qed.
Lemma bit_static : forall o t, arithmetic t -> exists j, sel [bit_kind o t] = Some [j] /\ forall x y T, fst x = sz t -> fst y = sz t -> static j (y :: x :: T) ((sz t, false) :: T).
Proof.
  intros o t [->|[->|[->| ->]]]; destruct o; (eexists; split; [reflexivity|]); intros x y T Hx Hy; rewrite <- Hx;
    (apply S_simple; [cbn; tauto| |congruence]); unfold word; rewrite Hx; unfold sz; cbn; tauto.
Qed.
Lemma cmp_static : forall o t, arithmetic t -> exists j, sel [cmp_kind o t] = Some [j] /\ forall x y T, fst x = sz t -> fst y = sz t -> static j (y :: x :: T) ((sz S32, false) :: T).
Proof.
  intros o t [->|[->|[->| ->]]]; destruct o; (eexists; split; [reflexivity|]); intros x y T Hx Hy;
    (apply S_compare; [split; eexists; reflexivity| |congruence]); unfold word; rewrite Hx; unfold sz; cbn; tauto.
Qed.

Lemma folded_good : forall (x : outcome lit) n q, obind x (fun q => Done (literal_expr q)) = Done q -> (1 <= n)%nat -> good n q.
Proof. intros [l| |] n q H Hn; try discriminate. injection H as <-. apply good_literal, Hn. Qed.

Lemma shift_good : forall na nb left a b q, good na a -> good nb b -> (1 <= na)%nat -> (1 <= nb)%nat ->
  lower_shift left a b = Done q -> good (na + nb + 4) q.
Proof.
  intros na nb left a b q Ga Gb Ha Hb H. unfold lower_shift in H.
  assert (X : (let '(a, ca) := push_cast_expr true (perform_integer_promotions (resolved_type a)) a in
      let '(b, cb) := push_cast_expr false (perform_integer_promotions (resolved_type b)) b in
      let bad := match literal b with
                 | Some r => (type_is_signed (resolved_type b) && (read_lit r <? 0))
                             || (integer_literal_as_u64 r >? size (resolved_type a) * 8)
                 | None => false
                 end in
      if bad then Reported
      else
        let '(b, cb8) := push_cast_expr false U8 b in
        let t := resolved_type a in
        Done (mkexpr (emit a ++ emit b ++ ca ++ cb ++ cb8 ++ [if left then Left_shift t else Right_shift t]) t None)) = Done q -> good (na + nb + 4) q).
  { clear H. intro H. pose proof (push_good na true (perform_integer_promotions (resolved_type a)) a Ga Ha) as Pa.
    pose proof (push_good nb false (perform_integer_promotions (resolved_type b)) b Gb Hb) as Pb.
    pose proof (arithmetic_promotions (resolved_type a)) as At.
    set (t := perform_integer_promotions (resolved_type a)) in *. set (tb := perform_integer_promotions (resolved_type b)) in *.
    destruct (push_cast_expr true t a) as (a', ca). destruct (push_cast_expr false tb b) as (b', cb). cbv zeta in H.
    destruct (match literal b' with Some _ => _ | None => false end) in H; [discriminate|].
    destruct Pa as (Ra & _ & _ & ka & ba & ba' & ja & (La & ja0 & Sa0 & Fa0) & Lca & Sa & _ & Fa).
    destruct Pb as (Rb & Lib & _ & kb & bb & bb' & jb & (Lb & jb0 & Sb0 & Fb0) & Lcb & Sb & Hbb & Fb).
    (* the amount as an u8 *)
    assert (Amount : let '(b2, cb8) := push_cast_expr false U8 b' in
       exists j1 j2 b2', (length (emit b2) <= nb)%nat /\ (length (cb ++ cb8) <= 2)%nat /\ sel (emit b2) = Some j1 /\ sel (cb ++ cb8) = Some j2 /\
       exists k0, (forall T, statics j1 T (k0 :: T)) /\ forall T, statics j2 (k0 :: T) ((1, b2') :: T)).
    { unfold push_cast_expr. rewrite Rb. destruct (ity_eqb tb U8) eqn:E.
      - exfalso. destruct (arithmetic_promotions (resolved_type b)) as [Y|[Y|[Y|Y]]]; fold tb in Y; rewrite Y in E; discriminate.
      - destruct (literal b') as [l|] eqn:El.
        + destruct (Lib l eq_refl) as (_ & ->). unfold emit. cbn [literal].
          assert (Ty : lty (push_cast U8 l) = U8) by (apply IntProofs.push_cast_ty).
          destruct (pushes_literal (push_cast U8 l) nb Hb) as (L1 & j1 & S1 & F1). rewrite Ty in F1.
          exists j1, [], true. split; [exact L1|]. split; [cbn; lia|]. split; [exact S1|]. split; [reflexivity|]. exists (1, true). split; [exact F1|intros; constructor].
        + destruct (cast_static false tb U8) as (L8 & j8 & S8' & F8). destruct (F8 bb') as (b8 & F8').
          unfold emit in Lb, Sb0 |- *. rewrite El in Lb, Sb0. cbn [literal code].
          exists jb0, (jb ++ j8), b8. split; [exact Lb|]. split; [rewrite app_length; lia|]. split; [exact Sb0|]. split; [apply sel_app; assumption|].
          exists (kb, bb). split; [exact Fb0|]. intro T. eapply statics_app; [apply (Fb (0, false) T)|]. apply (F8' (0, false) T). }
    destruct (push_cast_expr false U8 b') as (b2, cb8). destruct Amount as (j1 & j2 & b2' & L1 & L2 & S1 & S2 & k0 & F1 & F2). injection H as <-.
    rewrite Ra. split; [discriminate|]. exists false. unfold emit at 1. cbn [literal code resolved_type].
    assert (Op : exists j, sel [if left then Left_shift t else Right_shift t] = Some [j] /\ forall x y T, fst x = sz t -> fst y = 1 -> static j (y :: x :: T) ((sz t, false) :: T)).
    { destruct At as [Y|[Y|[Y|Y]]]; rewrite Y; destruct left; (eexists; split; [reflexivity|]); intros x y T Hx Hy; rewrite <- Hx; first [apply S_left|apply S_right]; auto. }
    destruct Op as (j & Sj & Fj).
    rewrite app_length in L2. split; [rewrite !app_length; cbn [length]; lia|].
    exists (ja0 ++ j1 ++ ja ++ j2 ++ [j]). split.
    - replace (emit a' ++ emit b2 ++ ca ++ cb ++ cb8 ++ [if left then Left_shift t else Right_shift t]) with (emit a' ++ emit b2 ++ ca ++ (cb ++ cb8) ++ [if left then Left_shift t else Right_shift t]) by (rewrite <- !app_assoc; reflexivity).
      repeat apply sel_app; assumption.
    - intro T. eapply statics_app; [apply Fa0|]. eapply statics_app; [apply F1|]. eapply statics_app; [apply (Fa k0 T)|].
      eapply statics_app; [apply F2|]. econstructor; [apply Fj; reflexivity|constructor]. }
  destruct (literal a); [|exact (X H)]. destruct (literal b); [|exact (X H)]. eapply folded_good; [exact H|lia].
Qed.

Lemma un_good : forall n o a q, good n a -> (1 <= n)%nat -> lower_un o a = Done q -> good (n + 2) q.
Proof.
  intros n o a q G Hn H. unfold lower_un in H. destruct (literal a) eqn:El; [eapply folded_good; [exact H|lia]|].
  pose proof (cast_good n (perform_integer_promotions (resolved_type a)) a G Hn) as P. fold (promotion_cast a) in P. cbv zeta in H.
  assert (Rt : resolved_type (promotion_cast a) = perform_integer_promotions (resolved_type a) /\ literal (promotion_cast a) = None).
  { unfold promotion_cast, cast_expr. pose proof (push_good n false (perform_integer_promotions (resolved_type a)) a G Hn) as P'. destruct (push_cast_expr false _ a) as (e', c).
    destruct P' as (R & _ & N & _). cbn [resolved_type literal]. auto. }
  destruct Rt as (Rt & Ln). pose proof (arithmetic_promotions (resolved_type a)) as At. rewrite <- Rt in At.
  destruct P as (_ & b & Lp & js & Sp & Fp). set (p := promotion_cast a) in *. unfold emit in Lp, Sp. rewrite Ln in Lp, Sp.
  assert (App : forall i j rt, sel [i] = Some [j] -> (forall x T, fst x = sz (resolved_type p) -> static j (x :: T) ((sz rt, false) :: T)) -> good (n + 2) (mkexpr (code p ++ [i]) rt None)).
  { intros i j rt Si Fi. split; [discriminate|]. exists false. unfold emit. cbn [literal code resolved_type]. split; [rewrite app_length; cbn [length]; lia|].
    exists (js ++ [j]). split; [apply sel_app; assumption|]. intro T. eapply statics_app; [apply Fp|]. econstructor; [apply Fi; reflexivity|constructor]. }
  destruct o.
  - injection H as <-. eapply App with (j := EmitModel.IR_negate); [destruct At as [Y|[Y|[Y|Y]]]; rewrite Y; reflexivity|]. intros x T <-. apply S_negate.
  - injection H as <-. split; [intros l X; congruence|]. exists b. unfold emit. rewrite Ln. split; [lia|]. exists js. auto.
  - injection H as <-. eapply App with (j := EmitModel.IR_bitwise_not); [destruct At as [Y|[Y|[Y|Y]]]; rewrite Y; reflexivity|]. intros x T <-. apply S_not.
  - injection H as <-. eapply App with (j := EmitModel.IR_logical_not); [destruct At as [Y|[Y|[Y|Y]]]; rewrite Y; reflexivity|]. intros x T _. apply S_lnot.
Qed.

Fixpoint nodes (e : vexpr) : nat :=
  match e with
  | VLit _ _ | VVar _ => 1
  | VUn _ a | VCast _ a => 1 + nodes a
  | VArith _ a b | VCmp _ a b | VBit _ a b | VShl a b | VShr a b | VComma a b => 1 + nodes a + nodes b
  end.
Lemma nodes_pos : forall e, (1 <= nodes e)%nat.
Proof. destruct e; cbn; lia. Qed.

Lemma good_more : forall n m e, good n e -> (n <= m)%nat -> good m e.
Proof. intros n m e (L & b & P & Q) H. split; [exact L|]. exists b. split; [lia|exact Q]. Qed.

Theorem lower_good : forall e q, lower ty e = Done q -> good (4 * nodes e) q.
Proof.
  assert (Two : forall (f : expr -> expr -> outcome expr) a b q, obind (lower ty a) (fun a => obind (lower ty b) (f a)) = Done q ->
     exists qa qb, lower ty a = Done qa /\ lower ty b = Done qb /\ f qa qb = Done q).
  { intros f a b q H. destruct (lower ty a) as [qa| |]; try discriminate. cbn [obind] in H. destruct (lower ty b) as [qb| |]; try discriminate. exists qa, qb. auto. }
  induction e as [t p|x|o a IHa|t a IHa|o a IHa b IHb|o a IHa b IHb|o a IHa b IHb|a IHa b IHb|a IHa b IHb|a IHa b IHb]; intros q H; cbn [lower] in H;
    try (pose proof (nodes_pos a) as Na; pose proof (nodes_pos b) as Nb; apply Two in H; destruct H as (qa & qb & Ea & Eb & H); specialize (IHa _ Ea); specialize (IHb _ Eb)).
  - injection H as <-. apply good_literal. cbn. lia.
  - injection H as <-. split; [discriminate|]. exists false. split; [cbn; lia|]. eexists. split; [reflexivity|]. intro T. econstructor; [|constructor]. apply S_local; [apply offsets|apply sz_size].
  - pose proof (nodes_pos a). destruct (lower ty a) as [qa| |]; try discriminate. cbn [obind] in H. eapply good_more; [eapply un_good; [apply IHa; reflexivity| |exact H]|]; cbn [nodes]; lia.
  - pose proof (nodes_pos a). destruct (lower ty a) as [qa| |]; try discriminate. cbn [obind] in H. injection H as <-. eapply good_more; [apply cast_good; [apply IHa; reflexivity|]|]; cbn [nodes]; lia.
  - unfold lower_arith in H. eapply (good_more (4 * nodes a + 4 * nodes b + 3)); [|cbn [nodes]; lia].
    destruct (literal qa), (literal qb); try (eapply folded_good; [exact H|lia]); eapply converted_good; try eassumption; try lia; intros t At; apply arith_static, At.
  - unfold lower_cmp in H. eapply (good_more (4 * nodes a + 4 * nodes b + 3)); [|cbn [nodes]; lia].
    destruct (literal qa), (literal qb); try (eapply folded_good; [exact H|lia]); eapply converted_good; try eassumption; try lia; intros t At; apply cmp_static, At.
  - unfold lower_bit in H. eapply (good_more (4 * nodes a + 4 * nodes b + 3)); [|cbn [nodes]; lia].
    destruct (literal qa), (literal qb); try (eapply folded_good; [exact H|lia]); eapply converted_good; try eassumption; try lia; intros t At; apply bit_static, At.
  - eapply good_more; [eapply shift_good; [exact IHa|exact IHb| | |exact H]|]; cbn [nodes]; lia.
  - eapply good_more; [eapply shift_good; [exact IHa|exact IHb| | |exact H]|]; cbn [nodes]; lia.
  - injection H as <-. destruct IHa as (_ & ba & La & ja & Sa & Fa). destruct IHb as (_ & bb & Lb & jb & Sb & Fb).
    split; [discriminate|]. exists bb. unfold emit at 1. cbn [literal code resolved_type]. split; [rewrite !app_length; cbn [length nodes]; rewrite app_length; cbn [length]; lia|].
    exists (ja ++ [EmitModel.IR_pop_expression] ++ jb ++ [EmitModel.IR_nop]). split; [apply sel_app; [exact Sa|]; apply (sel_app [Pop_expression]); [reflexivity|]; apply sel_app; [exact Sb|reflexivity]|]. intro T.
    eapply statics_app; [apply Fa|]. eapply statics_app; [econstructor; [apply S_pop|constructor]|]. eapply statics_app; [apply Fb|]. econstructor; [apply S_nop|constructor].
Qed.

Theorem compiled : forall frame e q, lower ty e = Done q -> 0 <= frame -> frame + 384 * Z.of_nat (nodes e) + 32 <= 2 ^ 31 ->
  exists code temporaries, compile_return frame offset ty e = Done (code, temporaries) /\ 0 <= temporaries <= 384 * Z.of_nat (nodes e) + 32.
Proof.
  intros frame e q H Hf Hb. destruct (lower_good e q H) as (_ & b & L & js & Sj & F). pose proof (sel_length _ _ Sj) as Lj.
  change (2 ^ 31) with 2147483648 in Hb.
  destruct (function_runs frame js _ (F []) Hf ltac:(lia)) as (code & tsa & E & B). exists code, tsa. unfold compile_return. rewrite H. cbn [obind]. rewrite Sj. split; [exact E|]. lia.
Qed.
End Lower.
