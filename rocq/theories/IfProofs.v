(** Proofs about the evaluation of `#if` conditions (C07). *)
From Verif Require Import Base IfModel IfSpec Md5Proofs.

(** * Arithmetic *)

Definition in_type (u : bool) (z : Z) : Prop := if u then 0 <= z < 2 ^ 64 else - 2 ^ 63 <= z < 2 ^ 63.

Lemma sign_back : forall x, - 2 ^ 63 <= x < 2 ^ 63 -> wraps 64 (wrapu 64 x) = x.
Proof. intros. rewrite (wraps_mod 64 (wrapu 64 x) x) by (apply wrapu_mod_eq; lia). apply wraps_id; [lia|]. change (64 - 1) with 63. lia. Qed.
Lemma common_wrap : forall u x, wrapu 64 (common u x) = wrapu 64 x.
Proof. intros [] x; cbn [common]; [apply wrapu_mod; [lia|]; apply (wrapu_mod_eq 64 x); lia|reflexivity]. Qed.
Lemma common_true : forall x, common true x = wrapu 64 x.
Proof. reflexivity. Qed.
Lemma type_wrap : forall u z v, as_type u z = Some v -> wrapu 64 v = wrapu 64 z.
Proof.
  intros [] z v H; cbn [as_type] in H.
  - injection H as <-. apply (common_wrap true z).
  - destruct (_ && _); congruence.
Qed.
Lemma type_in : forall u z v, as_type u z = Some v -> in_type u v.
Proof.
  intros [] z v H; cbn [as_type] in H.
  - injection H as <-. cbn [in_type]. apply Z.mod_pos_bound. lia.
  - destruct (Z.leb_spec (- 2 ^ 63) z), (Z.ltb_spec z (2 ^ 63)); cbn [andb] in H; try congruence. injection H as <-. cbn [in_type]. lia.
Qed.
Lemma wrap_mul : forall x y, wrapu 64 (wrapu 64 x * wrapu 64 y) = wrapu 64 (x * y).
Proof. intros. unfold wrapu. rewrite <- Z.mul_mod by lia. reflexivity. Qed.
Lemma wrap_mul_l : forall x y, wrapu 64 (wrapu 64 x * y) = wrapu 64 (x * y).
Proof. intros. unfold wrapu. apply Z.mul_mod_idemp_l. lia. Qed.
Lemma wrap_add : forall x y, wrapu 64 (wrapu 64 x + wrapu 64 y) = wrapu 64 (x + y).
Proof. intros. unfold wrapu. rewrite <- Z.add_mod by lia. reflexivity. Qed.
Lemma wrap_sub : forall x y, wrapu 64 (wrapu 64 x - wrapu 64 y) = wrapu 64 (x - y).
Proof. intros. unfold wrapu. rewrite Zminus_mod_idemp_l, Zminus_mod_idemp_r. reflexivity. Qed.
Lemma wrap_opp : forall x, wrapu 64 (- wrapu 64 x) = wrapu 64 (- x).
Proof. intros. replace (- wrapu 64 x) with (0 - wrapu 64 x) by lia. unfold wrapu. rewrite Zminus_mod_idemp_r. f_equal. Qed.
Lemma wrap_compl : forall x, wrapu 64 (- wrapu 64 x - 1) = wrapu 64 (- x - 1).
Proof. intros. replace (- wrapu 64 x - 1) with (-1 - wrapu 64 x) by lia. unfold wrapu. rewrite Zminus_mod_idemp_r. f_equal. lia. Qed.
Lemma wrap_land : forall x y, wrapu 64 (Z.land x y) = Z.land (wrapu 64 x) (wrapu 64 y).
Proof. intros. apply Z.bits_inj'. intros i Hi. rewrite Z.land_spec, !wrapu_bit, Z.land_spec by lia. destruct (i <? 64); cbn [andb]; reflexivity. Qed.
Lemma wrap_lor : forall x y, wrapu 64 (Z.lor x y) = Z.lor (wrapu 64 x) (wrapu 64 y).
Proof. intros. apply Z.bits_inj'. intros i Hi. rewrite Z.lor_spec, !wrapu_bit, Z.lor_spec by lia. destruct (i <? 64); cbn [andb]; reflexivity. Qed.
Lemma wrap_lxor : forall x y, wrapu 64 (Z.lxor x y) = Z.lxor (wrapu 64 x) (wrapu 64 y).
Proof. intros. apply Z.bits_inj'. intros i Hi. rewrite Z.lxor_spec, !wrapu_bit, Z.lxor_spec by lia. destruct (i <? 64); cbn [andb]; reflexivity. Qed.
Lemma wrap_zero : forall u x, in_type u x -> (wrapu 64 x =? 0) = (x =? 0).
Proof.
  intros u x H. destruct (Z.eqb_spec x 0) as [E|N]; [subst x; reflexivity|].
  destruct u; cbn [in_type] in H.
  - rewrite wrapu_id by lia. apply Z.eqb_neq. exact N.
  - apply Z.eqb_neq. intro E. apply N. rewrite <- (sign_back x H), E. reflexivity.
Qed.
Lemma b2z_wrap : forall b, wrapu 64 (Z.b2z b) = Z.b2z b.
Proof. intros []; reflexivity. Qed.
Lemma b2z_in : forall b, in_type false (Z.b2z b).
Proof. intros []; cbn [in_type Z.b2z]; lia. Qed.
Lemma in_weaken : forall u v x, in_type u x -> u || v = false -> - 2 ^ 63 <= x < 2 ^ 63.
Proof. intros [] v x H E; [discriminate|]. exact H. Qed.

Definition result_type (b : binary) (xu yu : bool) : bool :=
  match b with Shl | Shr => xu | Eq | Ne | Ge | Le | Gt | Lt | LAnd | LOr => false | _ => xu || yu end.

Lemma compare_ok : forall (f : Z -> Z -> bool) xu yu x y, in_type xu x -> in_type yu y ->
  (if yu || xu then f (wrapu 64 x) (wrapu 64 y) else f (wraps 64 (wrapu 64 x)) (wraps 64 (wrapu 64 y))) = f (common (xu || yu) x) (common (xu || yu) y).
Proof.
  intros f xu yu x y Hx Hy. rewrite orb_comm. destruct (xu || yu) eqn:E.
  - reflexivity.
  - destruct xu, yu; try discriminate. rewrite !sign_back by assumption. reflexivity.
Qed.

Lemma eq_ok : forall xu yu x y, in_type xu x -> in_type yu y -> (wrapu 64 x =? wrapu 64 y) = (common (xu || yu) x =? common (xu || yu) y).
Proof.
  intros xu yu x y Hx Hy. destruct (xu || yu) eqn:E; [reflexivity|]. destruct xu, yu; try discriminate. cbn [common].
  destruct (Z.eqb_spec x y) as [Q|N]; [subst y; apply Z.eqb_refl|]. apply Z.eqb_neq. intro Q. apply N. rewrite <- (sign_back x Hx), <- (sign_back y Hy), Q. reflexivity.
Qed.

Lemma compute_ok : forall b xu yu x y v, in_type xu x -> in_type yu y -> binary_value b xu yu x y = Some v ->
  match b with Shl | Shr => yu = true -> xu = true | _ => True end ->
  compute b (wrapu 64 x) xu (wrapu 64 y) yu = Done (wrapu 64 v, result_type b xu yu).
Proof.
  intros b xu yu x y v Hx Hy H S.
  assert (ZERO : common (xu || yu) y <> 0 -> wrapu 64 y <> 0).
  { intros N Q. apply N. destruct (xu || yu) eqn:E; [exact Q|]. destruct xu, yu; try discriminate. cbn [common]. rewrite <- (sign_back y Hy), Q. reflexivity. }
  assert (SH : forall z, (z <? 0) || (64 <=? z) = false -> in_type yu z -> wrapu 64 z = z /\ 0 <= z < 64).
  { intros z Q Hz. apply orb_false_iff in Q. destruct Q as [Q1 Q2]. apply Z.ltb_ge in Q1. apply Z.leb_gt in Q2. split; [apply wrapu_id; lia|lia]. }
  destruct b; cbn [compute binary_value result_type] in *.
  - (* Times *) rewrite orb_comm, (type_wrap _ _ _ H). f_equal. f_equal. destruct (xu || yu) eqn:E.
    + cbn [common]. fold (wrapu 64 x) (wrapu 64 y). reflexivity.
    + cbn [common]. rewrite !sign_back; [reflexivity|exact (in_weaken _ _ _ Hy (eq_trans (orb_comm _ _) E))|exact (in_weaken _ _ _ Hx E)].
  - (* Div *) destruct (Z.eqb_spec (common (xu || yu) y) 0) as [|N]; [discriminate|]. rewrite (proj2 (Z.eqb_neq _ _) (ZERO N)). rewrite orb_comm.
    destruct (xu || yu) eqn:E.
    + rewrite (type_wrap _ _ _ H). cbn [common] in *. pose proof (wrapu_range 64 x ltac:(lia)). pose proof (wrapu_range 64 y ltac:(lia)).
      change (x mod 2 ^ 64) with (wrapu 64 x). change (y mod 2 ^ 64) with (wrapu 64 y) in *.
      rewrite Z.quot_div_nonneg by lia. rewrite (wrapu_id 64 (wrapu 64 x / wrapu 64 y)); [reflexivity|]. split; [apply Z.div_pos; lia|]. apply Z.div_lt_upper_bound; nia.
    + cbn [common] in *. pose proof (in_weaken _ _ _ Hx E) as Rx. pose proof (in_weaken _ _ _ Hy (eq_trans (orb_comm _ _) E)) as Ry. rewrite !sign_back by assumption.
      destruct ((x =? - 2 ^ 63) && (y =? -1)) eqn:T.
      * apply andb_true_iff in T. destruct T as [T1 T2]. apply Z.eqb_eq in T1, T2. subst x y. vm_compute in H. discriminate.
      * rewrite (type_wrap _ _ _ H). reflexivity.
  - (* Mod *) destruct (Z.eqb_spec (common (xu || yu) y) 0) as [|N]; [discriminate|]. rewrite (proj2 (Z.eqb_neq _ _) (ZERO N)). rewrite orb_comm.
    destruct (as_type (xu || yu) (Z.quot _ _)) as [q|] eqn:Q; [|discriminate].
    destruct (xu || yu) eqn:E.
    + rewrite (type_wrap _ _ _ H). cbn [common] in *. pose proof (wrapu_range 64 x ltac:(lia)). pose proof (wrapu_range 64 y ltac:(lia)).
      change (x mod 2 ^ 64) with (wrapu 64 x). change (y mod 2 ^ 64) with (wrapu 64 y) in *.
      rewrite Z.rem_mod_nonneg by lia. rewrite (wrapu_id 64 (wrapu 64 x mod wrapu 64 y)); [reflexivity|]. pose proof (Z.mod_pos_bound (wrapu 64 x) (wrapu 64 y)). lia.
    + cbn [common] in *. pose proof (in_weaken _ _ _ Hx E) as Rx. pose proof (in_weaken _ _ _ Hy (eq_trans (orb_comm _ _) E)) as Ry. rewrite !sign_back by assumption.
      destruct ((x =? - 2 ^ 63) && (y =? -1)) eqn:T.
      * apply andb_true_iff in T. destruct T as [T1 T2]. apply Z.eqb_eq in T1, T2. subst x y. vm_compute in Q. discriminate.
      * rewrite (type_wrap _ _ _ H). reflexivity.
  - rewrite orb_comm, (type_wrap _ _ _ H), <- (wrap_add (common _ x)), !common_wrap. reflexivity.
  - rewrite orb_comm, (type_wrap _ _ _ H), <- (wrap_sub (common _ x)), !common_wrap. reflexivity.
  - (* Shl *) destruct ((y <? 0) || (64 <=? y)) eqn:Q; [discriminate|]. destruct (SH y Q Hy) as [W R]. rewrite W. rewrite (proj2 (Z.leb_gt 64 y)) by lia.
    assert (U : yu || xu = xu) by (destruct yu, xu; try reflexivity; specialize (S eq_refl); discriminate). rewrite U, wrap_mul_l. f_equal. f_equal. symmetry.
    destruct xu; [exact (type_wrap _ _ _ H)|]. destruct (x <? 0); [discriminate|]. exact (type_wrap _ _ _ H).
  - (* Shr *) destruct ((y <? 0) || (64 <=? y)) eqn:Q; [discriminate|]. destruct (SH y Q Hy) as [W R]. rewrite W. rewrite (proj2 (Z.leb_gt 64 y)) by lia.
    assert (U : yu || xu = xu) by (destruct yu, xu; try reflexivity; specialize (S eq_refl); discriminate). rewrite U, (type_wrap _ _ _ H). f_equal. f_equal. f_equal.
    destruct xu; cbn [in_type] in Hx; [rewrite wrapu_id by lia; reflexivity|]. rewrite sign_back by assumption. reflexivity.
  - injection H as <-. rewrite b2z_wrap. f_equal. f_equal. f_equal. exact (compare_ok (fun a b => b <=? a) xu yu x y Hx Hy).
  - injection H as <-. rewrite b2z_wrap. f_equal. f_equal. f_equal. exact (compare_ok (fun a b => a <=? b) xu yu x y Hx Hy).
  - injection H as <-. rewrite b2z_wrap. f_equal. f_equal. f_equal. exact (compare_ok (fun a b => b <? a) xu yu x y Hx Hy).
  - injection H as <-. rewrite b2z_wrap. f_equal. f_equal. f_equal. exact (compare_ok (fun a b => a <? b) xu yu x y Hx Hy).
  - injection H as <-. rewrite b2z_wrap, (eq_ok xu yu) by assumption. reflexivity.
  - injection H as <-. rewrite b2z_wrap, (eq_ok xu yu) by assumption. reflexivity.
  - rewrite orb_comm, (type_wrap _ _ _ H), wrap_land, !common_wrap. reflexivity.
  - rewrite orb_comm, (type_wrap _ _ _ H), wrap_lxor, !common_wrap. reflexivity.
  - rewrite orb_comm, (type_wrap _ _ _ H), wrap_lor, !common_wrap. reflexivity.
  - injection H as <-. rewrite b2z_wrap, (wrap_zero xu), (wrap_zero yu) by assumption. reflexivity.
  - injection H as <-. rewrite b2z_wrap, (wrap_zero xu), (wrap_zero yu) by assumption. reflexivity.
Qed.

(** * Values *)

Section Machine.
Variable is_macro : nat -> bool.

Fixpoint literals (e : expr) : Prop :=
  match e with
  | Literal u v => 0 <= v < 2 ^ 64
  | Char v => -128 <= v < 128
  | Name _ | IsDefined _ => True
  | Group e | Pos e | Un _ e => literals e
  | Bin _ x y => literals x /\ literals y
  | Cond c x y => literals c /\ literals x /\ literals y
  end.
Lemma reads_literals : forall l ts e, reads l ts e -> literals e.
Proof. induction 1; cbn [literals]; auto. Qed.

Lemma binary_in : forall b xu yu x y v, binary_value b xu yu x y = Some v -> in_type (result_type b xu yu) v.
Proof.
  intros b xu yu x y v H. destruct b; cbn [binary_value result_type] in *; try (eapply type_in; exact H); try (injection H as <-; apply b2z_in).
  - destruct (_ =? _); [discriminate|]. eapply type_in; exact H.
  - destruct (_ =? _); [discriminate|]. destruct (as_type _ _); [|discriminate]. eapply type_in; exact H.
  - destruct (_ || _); [discriminate|]. destruct xu; [eapply type_in; exact H|]. destruct (_ <? _); [discriminate|]. eapply type_in; exact H.
  - destruct (_ || _); [discriminate|]. eapply type_in; exact H.
Qed.

Lemma unsigned_bin : forall b x y, unsigned (Bin b x y) = result_type b (unsigned x) (unsigned y).
Proof. intros []; reflexivity. Qed.

Lemma value_bin : forall b x y v w, value is_macro x = Some v -> value is_macro y = Some w ->
  value is_macro (Bin b x y) = binary_value b (unsigned x) (unsigned y) v w.
Proof.
  intros b x y v w Hx Hy. destruct b; cbn [value]; rewrite Hx, ?Hy; try reflexivity; cbn [binary_value].
  - destruct v; cbn [Z.eqb negb andb Z.b2z]; reflexivity.
  - destruct v; cbn [Z.eqb negb orb Z.b2z]; reflexivity.
Qed.

Lemma value_in : forall e v, literals e -> value is_macro e = Some v -> in_type (unsigned e) v.
Proof.
  induction e as [u w|w|n|n|e IH|e IH|o e IH|b x IHx y IHy|c IHc x IHx y IHy]; intros v L H; cbn [literals] in L.
  - injection H as <-. cbn [unsigned]. destruct u; cbn [orb in_type]; [exact L|]. destruct (Z.leb_spec (2 ^ 63) w); cbn [in_type]; lia.
  - injection H as <-. cbn [unsigned in_type]. lia.
  - injection H as <-. cbn [unsigned in_type]. lia.
  - injection H as <-. apply b2z_in.
  - exact (IH v L H).
  - exact (IH v L H).
  - cbn [value] in H. destruct (value is_macro e) as [w|] eqn:E; [|discriminate]. destruct o; cbn [unsigned].
    + injection H as <-. apply b2z_in.
    + eapply type_in; exact H.
    + eapply type_in; exact H.
  - rewrite unsigned_bin. destruct (value is_macro x) as [vx|] eqn:Ex.
    2: { destruct b; cbn [value] in H; rewrite Ex in H; discriminate. }
    destruct (value is_macro y) as [vy|] eqn:Ey.
    + rewrite (value_bin b x y vx vy Ex Ey) in H. eapply binary_in; exact H.
    + destruct b; cbn [value] in H; rewrite Ex, ?Ey in H; try discriminate; destruct vx; try discriminate; injection H as <-; cbn [result_type in_type]; lia.
  - cbn [value] in H. destruct (value is_macro c) as [vc|]; [|discriminate]. cbn [unsigned].
    destruct (value is_macro (if vc =? 0 then y else x)) as [w|] eqn:E; [|discriminate]. injection H as <-.
    assert (R : in_type (unsigned (if vc =? 0 then y else x)) w) by (destruct (vc =? 0); [apply IHy|apply IHx]; tauto).
    destruct (unsigned x || unsigned y) eqn:U; cbn [common in_type].
    + apply Z.mod_pos_bound. lia.
    + apply orb_false_iff in U. destruct U as [U1 U2]. destruct (vc =? 0); [rewrite U2 in R|rewrite U1 in R]; exact R.
Qed.

(** * The machine *)

Inductive steps : config -> config -> Prop :=
  | s_done : forall c, steps c c
  | s_more : forall c c' d, step is_macro c = Next c' -> steps c' d -> steps c d.
Lemma steps_trans : forall a b c, steps a b -> steps b c -> steps a c.
Proof. induction 1; intros; [assumption|]. econstructor; eauto. Qed.
Lemma steps_one : forall a b c, steps a b -> step is_macro b = Next c -> steps a c.
Proof. intros. eapply steps_trans; [eassumption|]. econstructor; [eassumption|constructor]. Qed.

Definition stop (l : Z) (rest : list token) : Prop := token_precedence (hd_error rest) = 0 \/ (l <= token_precedence (hd_error rest) /\ l < 13).
Definition ready (l : Z) (st : list node) : Prop := l = 2 \/ match st with [] => True | n :: _ => l < operation_precedence (op n) \/ (l = 13 /\ operation_precedence (op n) = 13) end.

Lemma reads_level : forall l ts e, reads l ts e -> 2 <= l <= 13.
Proof. induction 1; lia. Qed.
Lemma level_c : forall b, c_level b = level b.
Proof. intros []; reflexivity. Qed.
Lemma level_range : forall b, 3 <= level b <= 12.
Proof. intros []; cbn; lia. Qed.

Lemma push_ok : forall st n k, Z.of_nat (length st) + 1 <= 1023 -> push st n k = k (n :: st).
Proof. intros. unfold push. rewrite (proj2 (Z.leb_gt 1024 _)) by lia. reflexivity. Qed.

Lemma pop_stop : forall l rest, stop l rest -> l <> 13 -> (negb (token_precedence (hd_error rest) =? 0) && (token_precedence (hd_error rest) <? l)) || ((l =? token_precedence (hd_error rest)) && (l =? 13)) = false.
Proof.
  intros l rest [H|[H1 H2]] N; rewrite ?H.
  - cbn [Z.eqb negb andb orb]. rewrite (proj2 (Z.eqb_neq l 13) N), andb_false_r. reflexivity.
  - rewrite (proj2 (Z.ltb_ge _ l) H1), andb_false_r, (proj2 (Z.eqb_neq l 13) N), andb_false_r. reflexivity.
Qed.

Lemma main : forall l ts e, reads l ts e -> forall st rest v, regular e -> all_defined is_macro e -> value is_macro e = Some v ->
  stop l rest -> ready l st -> Z.of_nat (length st) + pending e <= 1023 ->
  steps (Operand st (ts ++ rest)) (After st (wrapu 64 v) (unsigned e) rest).
Proof.
  induction 1 as [u w Hw|w Hw|n|n|n|ts e R IH|ts e R IH|o ts e R IH|b ts us x y Rx IHx Ry IHy|ts us vs c x y Rc IHc Rx IHx Ry IHy|l l' ts e R IH Hl];
    intros st rest v G D V S P B.
  - injection V as <-. apply (steps_one _ _ _ (s_done _)). cbn [step app operand unsigned]. cbn [regular] in G. rewrite wrapu_id by assumption. do 2 f_equal.
    destruct u; [reflexivity|]. specialize (G eq_refl). cbn [orb]. destruct (Z.ltb_spec w (2 ^ 63 - 1)), (Z.leb_spec (2 ^ 63) w); cbn [negb]; try reflexivity; lia.
  - injection V as <-. apply (steps_one _ _ _ (s_done _)). reflexivity.
  - injection V as <-. apply (steps_one _ _ _ (s_done _)). reflexivity.
  - injection V as <-. apply (steps_one _ _ _ (s_done _)). rewrite b2z_wrap. reflexivity.
  - injection V as <-. apply (steps_one _ _ _ (s_done _)). rewrite b2z_wrap. reflexivity.
  - (* parentheses *) cbn [pending] in B. pose proof (reads_level _ _ _ R).
    assert (0 <= pending e) by (clear; induction e; cbn [pending]; lia).
    apply (s_more _ (Operand (mknode PAREN 0 false :: st) (ts ++ RParen :: rest))).
    { cbn [step app operand]. rewrite push_ok by lia. rewrite <- app_assoc. reflexivity. }
    eapply steps_one.
    + apply (IH (mknode PAREN 0 false :: st) (RParen :: rest) v); [exact G|exact (proj2 D)|exact V|left; reflexivity|right; cbn; left; lia|cbn [length]; lia].
    + cbn [step after op operation_precedence hd_error token_precedence]. reflexivity.
  - (* plus *) apply (s_more _ (Operand st (ts ++ rest))); [reflexivity|]. apply (IH st rest v); try assumption; [exact (proj2 D)].
  - (* unary *) cbn [pending] in B. assert (0 <= pending e) by (clear; induction e; cbn [pending]; lia).
    cbn [value] in V. destruct (value is_macro e) as [w|] eqn:E; [|discriminate].
    assert (G' : regular e) by (destruct o; cbn [regular] in G; tauto).
    apply (s_more _ (Operand (mknode (UNARY o) 0 false :: st) (ts ++ rest))).
    { destruct o; cbn [step app operand unary_token]; rewrite push_ok by lia; reflexivity. }
    eapply steps_one.
    + apply (IH (mknode (UNARY o) 0 false :: st) rest w); [exact G'|exact (proj2 D)|reflexivity|exact S|left; reflexivity|cbn [length]; lia].
    + cbn [step after op operation_precedence]. rewrite (pop_stop 2 rest S) by lia. f_equal. pose proof (value_in e w (reads_literals _ _ _ R) E) as I.
      destruct o; cbn [compute_unary unsigned].
      * injection V as <-. cbn [regular] in G. rewrite (wrap_zero _ w I), b2z_wrap, (proj1 G). reflexivity.
      * rewrite (type_wrap _ _ _ V), wrap_compl. reflexivity.
      * rewrite (type_wrap _ _ _ V), wrap_opp. reflexivity.
  - (* binary *) rewrite level_c in *. cbn [pending] in B. assert (0 <= pending x) by (clear; induction x; cbn [pending]; lia). assert (0 <= pending y) by (clear; induction y; cbn [pending]; lia).
    pose proof (level_range b) as LR. destruct D as (D0 & Dx & Dy).
    assert (Vx : exists vx, value is_macro x = Some vx) by (destruct (value is_macro x) eqn:E; [eauto|]; destruct x; cbn [all_defined] in Dx; destruct Dx as [Dx _]; congruence).
    assert (Vy : exists vy, value is_macro y = Some vy) by (destruct (value is_macro y) eqn:E; [eauto|]; destruct y; cbn [all_defined] in Dy; destruct Dy as [Dy _]; congruence).
    destruct Vx as [vx Vx], Vy as [vy Vy]. rewrite (value_bin b x y vx vy Vx Vy) in V.
    assert (Gx : regular x) by (destruct b; cbn [regular] in G; tauto). assert (Gy : regular y) by (destruct b; cbn [regular] in G; tauto).
    rewrite <- app_assoc. cbn [app].
    eapply steps_trans.
    { apply (IHx st (Operator b :: us ++ rest) vx); [exact Gx|exact Dx|exact Vx|right; cbn; lia|exact P|lia]. }
    apply (s_more _ (Operand (mknode (BINARY b) (wrapu 64 vx) (unsigned x) :: st) (us ++ rest))).
    { cbn [step]. unfold after. cbn [hd_error token_precedence]. destruct st as [|n st].
      - cbn [operator]. rewrite push_ok by (cbn [length] in *; lia). reflexivity.
      - destruct P as [P|P]; [lia|]. rewrite (proj2 (Z.ltb_lt (level b) (operation_precedence (op n)))) by lia. rewrite (proj2 (Z.eqb_neq (level b) 0)) by lia.
        cbn [negb andb orb operator]. rewrite push_ok by lia. reflexivity. }
    eapply steps_one.
    { apply (IHy (mknode (BINARY b) (wrapu 64 vx) (unsigned x) :: st) rest vy); [exact Gy|exact Dy|exact Vy| | |cbn [length]; lia].
      - destruct S as [S|S]; [left; exact S|right; lia].
      - right. cbn [op operation_precedence]. left. lia. }
    cbn [step after op operation_precedence]. rewrite (pop_stop (level b) rest S) by lia. cbn [nval nuns].
    rewrite (compute_ok b (unsigned x) (unsigned y) vx vy v); [rewrite unsigned_bin; reflexivity| | |exact V|].
    + exact (value_in x vx (reads_literals _ _ _ Rx) Vx).
    + exact (value_in y vy (reads_literals _ _ _ Ry) Vy).
    + destruct b; try exact I; exact (proj1 G).
  - (* conditional *) cbn [pending] in B. assert (0 <= pending c) by (clear; induction c; cbn [pending]; lia). assert (0 <= pending x) by (clear; induction x; cbn [pending]; lia). assert (0 <= pending y) by (clear; induction y; cbn [pending]; lia).
    destruct D as (D0 & Dc & Dx & Dy).
    assert (Vc : exists vc, value is_macro c = Some vc) by (destruct (value is_macro c) eqn:E; [eauto|]; destruct c; cbn [all_defined] in Dc; destruct Dc as [Dc _]; congruence).
    assert (Vx : exists vx, value is_macro x = Some vx) by (destruct (value is_macro x) eqn:E; [eauto|]; destruct x; cbn [all_defined] in Dx; destruct Dx as [Dx _]; congruence).
    assert (Vy : exists vy, value is_macro y = Some vy) by (destruct (value is_macro y) eqn:E; [eauto|]; destruct y; cbn [all_defined] in Dy; destruct Dy as [Dy _]; congruence).
    destruct Vc as [vc Vc], Vx as [vx Vx], Vy as [vy Vy]. cbn [regular] in G. destruct G as (GU & Gc & Gx & Gy).
    rewrite <- app_assoc. cbn [app]. rewrite <- app_assoc. cbn [app].
    eapply steps_trans.
    { apply (IHc st (Question :: us ++ Colon :: vs ++ rest) vc); [exact Gc|exact Dc|exact Vc|right; cbn; lia| |lia].
      destruct P as [P|P]; [lia|]. right. destruct st; [exact I|]. lia. }
    apply (s_more _ (Operand (mknode CONDITION (wrapu 64 vc) (unsigned c) :: st) (us ++ Colon :: vs ++ rest))).
    { cbn [step]. unfold after. cbn [hd_error token_precedence]. destruct st as [|n st].
      - cbn [operator]. rewrite push_ok by (cbn [length] in *; lia). reflexivity.
      - destruct P as [P|[P|P]]; [lia| |].
        + rewrite (proj2 (Z.ltb_lt 13 (operation_precedence (op n)))) by lia. cbn [Z.eqb negb andb orb operator]. rewrite push_ok by lia. reflexivity.
        + rewrite (proj2 P). cbn [operator]. rewrite push_ok by lia. reflexivity. }
    eapply steps_trans.
    { apply (IHx (mknode CONDITION (wrapu 64 vc) (unsigned c) :: st) (Colon :: vs ++ rest) vx); [exact Gx|exact Dx|exact Vx|left; reflexivity|right; cbn; left; lia|cbn [length]; lia]. }
    apply (s_more _ (Operand (mknode IF_TRUE (wrapu 64 vx) (unsigned x) :: mknode CONDITION (wrapu 64 vc) (unsigned c) :: st) (vs ++ rest))).
    { cbn [step after op operation_precedence hd_error token_precedence Z.eqb negb andb orb]. rewrite push_ok by lia. rewrite push_ok by (cbn [length]; lia). reflexivity. }
    eapply steps_one.
    { apply (IHy (mknode IF_TRUE (wrapu 64 vx) (unsigned x) :: mknode CONDITION (wrapu 64 vc) (unsigned c) :: st) rest vy); [exact Gy|exact Dy|exact Vy|exact S|right; cbn; right; lia|cbn [length]; lia]. }
    assert (S0 : token_precedence (hd_error rest) = 0) by (destruct S; lia).
    cbn [step after op operation_precedence]. rewrite S0. cbn [Z.eqb Z.ltb negb andb orb nval]. f_equal.
    pose proof (value_in c vc (reads_literals _ _ _ Rc) Vc) as Ic. rewrite (wrap_zero _ vc Ic).
    cbn [value] in V. rewrite Vc in V. cbn [unsigned]. rewrite GU, orb_diag. f_equal.
    destruct (vc =? 0); [rewrite Vy in V|rewrite Vx in V]; injection V as <-; rewrite common_wrap; reflexivity.
  - (* up *) apply (IH st rest v); try assumption.
    + destruct S as [S|[S1 S2]]; [left; exact S|right; lia].
    + pose proof (reads_level _ _ _ R). destruct P as [P|P]; [lia|]. right. destruct st; [exact I|]. lia.
Qed.

(** * Enough fuel *)

Definition size (c : config) : nat := match c with Operand st ts => 4 * length ts + length st + 1 | After st _ _ ts => 4 * length ts + length st end.
Lemma push_next : forall st n k c, push st n k = Next c -> k (n :: st) = Next c.
Proof. intros st n k c H. unfold push in H. destruct (1024 <=? _); [discriminate|]. exact H. Qed.
Lemma operator_size : forall st v u ts c, operator st v u ts = Next c -> (size c < size (After st v u ts))%nat.
Proof.
  intros st v u ts c H. unfold operator in H. destruct ts as [|t ts]; [destruct st; discriminate|].
  destruct t; try (destruct st; discriminate); apply push_next in H; injection H as <-; cbn [size length]; lia.
Qed.
Lemma step_size : forall c c', step is_macro c = Next c' -> (size c' < size c)%nat.
Proof.
  intros [st ts|st v u ts] c' H; cbn [step] in H.
  - unfold operand in H. destruct ts as [|t ts]; [discriminate|].
    destruct t as [u v|v|n| | | |b| | | | |]; try discriminate; try (apply push_next in H; injection H as <-; cbn [size length]; lia); try (injection H as <-; cbn [size length]; lia).
    + destruct ts as [|[] ts]; try discriminate; [injection H as <-; cbn [size length]; lia|].
      destruct ts as [|[] ts]; try discriminate. destruct ts as [|[] ts]; try discriminate. injection H as <-. cbn [size length]. lia.
    + destruct b; try discriminate; [injection H as <-; cbn [size length]; lia|apply push_next in H; injection H as <-; cbn [size length]; lia].
  - unfold after in H. destruct st as [|n st]; [exact (operator_size [] v u ts c' H)|].
    destruct ((_ && _) || _); [exact (operator_size (n :: st) v u ts c' H)|].
    destruct (op n).
    + injection H as <-. cbn [size length]. lia.
    + destruct (compute _ _ _ _ _) as [[v' u']| |]; try discriminate. injection H as <-. cbn [size length]. lia.
    + destruct ts as [|[] ts]; try discriminate. injection H as <-. cbn [size length]. lia.
    + destruct ts as [|[] ts]; try discriminate. apply push_next in H. apply push_next in H. injection H as <-. cbn [size length]. lia.
    + destruct st as [|c st]; [discriminate|]. destruct (op c); try discriminate. injection H as <-. cbn [size length]. lia.
Qed.
Lemma run_steps : forall c d, steps c d -> forall n, (size c < n)%nat -> exists m, (size d < m)%nat /\ run is_macro n c = run is_macro m d.
Proof.
  induction 1 as [c|c c' d H S IH]; intros n Hn; [eauto|]. pose proof (step_size _ _ H).
  destruct n as [|n]; [lia|]. cbn [run]. rewrite H. apply IH. lia.
Qed.

Lemma evaluate_value : forall ts e v, reads 13 ts e -> regular e -> all_defined is_macro e -> value is_macro e = Some v -> pending e <= 1023 ->
  evaluate is_macro ts = Done (wrapu 64 v).
Proof.
  intros ts e v R G D V P. unfold evaluate.
  pose proof (main 13 ts e R [] [] v G D V (or_introl eq_refl) (or_intror I) ltac:(cbn [length]; lia)) as S. rewrite app_nil_r in S.
  destruct (run_steps _ _ S (4 * length ts + 2) ltac:(cbn [size length]; lia)) as (m & Hm & ->).
  destruct m as [|m]; [lia|]. reflexivity.
Qed.
End Machine.
