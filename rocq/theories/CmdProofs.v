From Verif Require Import Base CmdModel CmdSpec.

Lemma white_iff : forall c, u8_is_whitespace_or_newline c = true <-> white c.
Proof. intros. unfold u8_is_whitespace_or_newline, white. lia. Qed.

Definition runs (l : list Z) (q a : bool) (n : nat) (o : list Z) : Prop :=
  forall f, (length l < f)%nat -> loop f l q a = Done (n, o).

Ltac step f H := intros f H; destruct f as [|f]; [exfalso; lia|]; cbn [loop].

Lemma not34 : forall A (l : list Z) (x : list Z -> A) (y : A), ~ starts_with 34 l ->
  match l with 34 :: r => x r | _ => y end = y.
Proof.
  intros. destruct l as [|c r]; auto. destruct (Z.eq_dec c 34) as [->|N]; [exfalso; apply H; eexists; eauto|].
  destruct c; auto. repeat (destruct p; auto). congruence.
Qed.

Lemma count_repeat : forall n t, ~ starts_with 92 t -> count_slashes (repeat 92 n ++ t) = (n, t).
Proof.
  induction n; intros t H; cbn [repeat app].
  - destruct t as [|c r]; cbn; auto. destruct (Z.eqb_spec c 92) as [->|N]; auto. exfalso; apply H; eexists; eauto.
  - cbn [count_slashes]. rewrite IHn by auto. reflexivity.
Qed.

Lemma count_is : forall l n r, count_slashes l = (n, r) -> l = repeat 92 n ++ r /\ ~ starts_with 92 r.
Proof.
  induction l as [|c l IH]; cbn; intros n r E.
  - injection E as <- <-. split; auto. intros [x H]; discriminate.
  - destruct (Z.eqb_spec c 92) as [->|N].
    + destruct (count_slashes l) as [m s] eqn:C. injection E as <- <-. destruct (IH _ _ eq_refl) as [-> H]. auto.
    + injection E as <- <-. split; auto. intros [x H]. congruence.
Qed.

Lemma sw_dec : forall c t, starts_with c t \/ ~ starts_with c t.
Proof.
  intros c [|d r].
  - right. intros [x H]; discriminate.
  - destruct (Z.eq_dec d c) as [->|N]; [left; eexists; eauto|right; intros [x H]; congruence].
Qed.

(** ** one lemma per kind of step, inside of an argument *)
Lemma runs_nil : forall q a, runs [] q a 0 [0].
Proof. intros q a. step f H. reflexivity. Qed.

Lemma runs_char : forall q c t n o, c <> 92 -> c <> 34 -> (q = false -> ~ white c) -> runs t q true n o -> runs (c :: t) q true n (c :: o).
Proof.
  intros q c t n o N1 N2 W R. step f H. cbn [length] in H.
  replace (q && negb true) with false by (destruct q; auto).
  replace (c =? 92) with false by lia. replace (c =? 34) with false by lia.
  rewrite (R f) by lia. cbn [obind app Nat.add].
  destruct (u8_is_whitespace_or_newline c) eqn:E; [|reflexivity].
  apply white_iff in E. destruct q; [reflexivity|]. exfalso. apply W; auto.
Qed.

Lemma runs_slashes : forall q n t m o, (0 < n)%nat -> ~ starts_with 92 t -> ~ starts_with 34 t ->
  runs t q true m o -> runs (repeat 92 n ++ t) q true m (repeat 92 n ++ o).
Proof.
  intros q n t m o N S1 S2 R. step f H. rewrite app_length, repeat_length in H.
  destruct (repeat 92 n ++ t) as [|c r] eqn:E; [destruct n; [lia|discriminate]|].
  assert (c = 92) by (destruct n; [lia|cbn in E; congruence]). subst c.
  replace (q && negb true) with false by (destruct q; auto). cbn [Z.eqb Pos.eqb].
  rewrite <- E, count_repeat by auto. rewrite not34 by auto.
  rewrite (R f) by lia. reflexivity.
Qed.

Lemma runs_even : forall q n t m o, (0 < n)%nat -> starts_with 34 t ->
  runs t q true m o -> runs (repeat 92 (2 * n) ++ t) q true m (repeat 92 n ++ o).
Proof.
  intros q n t m o N S R. step f H. rewrite app_length, repeat_length in H.
  destruct (repeat 92 (2 * n) ++ t) as [|c r] eqn:E; [destruct n; [lia|discriminate]|].
  assert (c = 92) by (destruct n; [lia|cbn in E; congruence]). subst c.
  replace (q && negb true) with false by (destruct q; auto). cbn [Z.eqb Pos.eqb].
  destruct S as [r' ->].
  rewrite <- E, count_repeat by (intros [x X]; discriminate).
  replace (Nat.odd (2 * n)) with false by (rewrite Nat.odd_mul; reflexivity).
  rewrite Nat.div2_double.
  rewrite (R f) by lia. reflexivity.
Qed.

Lemma runs_odd : forall q n t m o, runs t q true m o -> runs (repeat 92 (2 * n + 1) ++ 34 :: t) q true m (repeat 92 n ++ 34 :: o).
Proof.
  intros q n t m o R. step f H. rewrite app_length, repeat_length in H. cbn [length] in H.
  destruct (repeat 92 (2 * n + 1) ++ 34 :: t) as [|c r] eqn:E; [destruct (2 * n + 1)%nat eqn:X; [lia|discriminate]|].
  assert (c = 92) by (rewrite Nat.add_1_r in E; cbn in E; congruence). subst c.
  replace (q && negb true) with false by (destruct q; auto). cbn [Z.eqb Pos.eqb].
  rewrite <- E, count_repeat by (intros [x X]; discriminate).
  replace (Nat.odd (2 * n + 1)) with true by (rewrite Nat.add_1_r, Nat.odd_succ, Nat.even_mul; reflexivity).
  rewrite Nat.add_1_r, Nat.div2_succ_double.
  rewrite (R f) by lia. cbn [obind Nat.add]. rewrite <- app_assoc. reflexivity.
Qed.

Lemma runs_open : forall t m o, runs t true true m o -> runs (34 :: t) false true m o.
Proof. intros t m o R. step f H. cbn [length] in H. cbn. rewrite (R f) by lia. reflexivity. Qed.
Lemma runs_close : forall t m o, ~ starts_with 34 t -> runs t false true m o -> runs (34 :: t) true true m o.
Proof.
  intros t m o S R. step f H. cbn [length] in H. cbn [andb negb Z.eqb Pos.eqb]. rewrite not34 by auto. rewrite (R f) by lia. reflexivity.
Qed.
Lemma runs_double : forall t m o, runs t true true m o -> runs (34 :: 34 :: t) true true m (34 :: o).
Proof. intros t m o R. step f H. cbn [length] in H. cbn [andb negb Z.eqb Pos.eqb]. rewrite (R f) by lia. reflexivity. Qed.

Lemma arg_app_start : forall c t rest, ~ starts_with c t -> (rest = [] \/ exists d r, rest = d :: r /\ d <> c) -> ~ starts_with c (t ++ rest).
Proof.
  intros c [|d t] rest H R [x X]; cbn in X.
  - destruct R as [->|(d & r & -> & N)]; congruence.
  - apply H. exists t. congruence.
Qed.

Lemma arg_runs : forall q t v e, arg q t v e -> forall rest m o,
  (rest = [] \/ exists d r, rest = d :: r /\ white d) ->
  runs rest e true m o -> runs (t ++ rest) q true m (v ++ o).
Proof.
  induction 1; intros rest m o RS R; cbn [app].
  - exact R.
  - apply runs_char; auto.
  - rewrite <- !app_assoc. apply runs_slashes; auto; apply arg_app_start; auto;
    destruct RS as [->|(d & r & -> & W)]; auto; right; exists d, r; unfold white in W; split; auto; lia.
  - rewrite <- !app_assoc. apply runs_even; auto. destruct H0 as [r ->]. eexists. reflexivity.
  - rewrite <- !app_assoc. cbn [app]. apply runs_odd; auto.
  - apply runs_open; auto.
  - apply runs_close; auto. apply arg_app_start; auto.
    destruct RS as [->|(d & r & -> & W)]; auto; right; exists d, r; unfold white in W; split; auto; lia.
  - apply runs_double; auto.
Qed.

(** ** beginning an argument *)
Lemma runs_begin : forall c t n o, ~ white c -> runs (c :: t) false true n o -> runs (c :: t) false false (S n) o.
Proof.
  intros c t n o W R f H. specialize (R f H). destruct f as [|f]; [cbn in H; lia|].
  cbn [loop andb negb] in *.
  destruct (c =? 92).
  - destruct (count_slashes (c :: t)) as [k after].
    assert (G : forall b r, obind r (fun '(n, out) => Done ((0 + n)%nat, b ++ out)) = Done (n, o) ->
                 obind r (fun '(n, out) => Done ((1 + n)%nat, b ++ out)) = Done (S n, o)).
    { intros b [[n' o']| |] E; cbn in *; try discriminate. injection E as -> ->. reflexivity. }
    destruct (sw_dec 34 after) as [[r ->]|S].
    + destruct (Nat.odd k); apply G; auto.
    + rewrite not34 in * by auto. apply G; auto.
  - destruct (c =? 34).
    + destruct (loop f t true true) as [[n' o']| |]; cbn in *; try discriminate. injection R as -> ->. reflexivity.
    + destruct (u8_is_whitespace_or_newline c) eqn:E; [apply white_iff in E; tauto|].
      destruct (loop f t false true) as [[n' o']| |]; cbn in *; try discriminate. injection R as -> ->. reflexivity.
Qed.

Lemma runs_white_out : forall c t n o, white c -> runs t false false n o -> runs (c :: t) false false n o.
Proof.
  intros c t n o W R. step f H. cbn [length] in H. cbn [andb negb].
  assert (c <> 92 /\ c <> 34) by (unfold white in W; lia).
  replace (c =? 92) with false by lia. replace (c =? 34) with false by lia.
  rewrite (proj2 (white_iff c) W). rewrite (R f) by lia. reflexivity.
Qed.
Lemma runs_white_in : forall c t n o, white c -> runs t false false n o -> runs (c :: t) false true n (0 :: o).
Proof.
  intros c t n o W R. step f H. cbn [length] in H. cbn [andb negb].
  assert (c <> 92 /\ c <> 34) by (unfold white in W; lia).
  replace (c =? 92) with false by lia. replace (c =? 34) with false by lia.
  rewrite (proj2 (white_iff c) W). rewrite (R f) by lia. reflexivity.
Qed.

Lemma arg_head : forall c t v e, arg false (c :: t) v e -> ~ white c.
Proof.
  intros c t v e A. inversion A; subst; auto.
  - destruct n; [lia|]. cbn in H. injection H as <- _. unfold white; lia.
  - destruct n; [lia|]. cbn in H. injection H as <- _. unfold white; lia.
  - rewrite Nat.add_1_r in H. cbn in H. injection H as <- _. unfold white; lia.
  - unfold white; lia.
Qed.

(** ** the buffer *)
Definition nz (l : list Z) : Prop := Forall (fun c => c <> 0) l.

Lemma arg_nz : forall q t v e, arg q t v e -> nz t -> nz v.
Proof.
  assert (RP : forall n, nz (repeat 92 n)) by (induction n; constructor; auto; lia).
  induction 1; intros N; unfold nz in *.
  - constructor.
  - inversion N; subst. constructor; auto.
  - apply Forall_app in N. destruct N. apply Forall_app. split; auto.
  - apply Forall_app in N. destruct N. apply Forall_app. split; auto.
  - apply Forall_app in N. destruct N as [_ N]. inversion N; subst. apply Forall_app. split; [apply RP|]. constructor; auto.
  - inversion N; subst; auto.
  - inversion N; subst; auto.
  - inversion N; subst. inversion H3; subst. constructor; auto.
Qed.

Lemma read_ok : forall v r, nz v -> read_cstring (v ++ 0 :: r) = Done (v, r).
Proof.
  induction v as [|c v IH]; intros r N; cbn [app read_cstring]; auto. inversion N; subst.
  rewrite IH by auto. destruct c; [congruence| |]; reflexivity.
Qed.

Lemma line_runs : forall t args, line t args -> nz t ->
  exists o, runs t false false (length args) o /\ make_argv (length args) o = Done args.
Proof.
  induction 1 as [|c t args W L IH|a v e NE A|a v c t args NE A W L IH]; intros N.
  - exists [0]. split; [apply runs_nil|reflexivity].
  - inversion N; subst. destruct (IH H2) as [o [R M]]. exists o. split; auto. apply runs_white_out; auto.
  - exists (v ++ [0]). split.
    + destruct a as [|c t]; [congruence|]. apply runs_begin; [eapply arg_head; eauto|].
      pose proof (arg_runs _ _ _ _ A [] 0%nat [0] (or_introl eq_refl) (runs_nil _ _)) as R. rewrite app_nil_r in R. exact R.
    + cbn [length make_argv]. rewrite read_ok by (eapply arg_nz; eauto). reflexivity.
  - unfold nz in N. apply Forall_app in N. destruct N as [N1 N2]. inversion N2; subst.
    destruct (IH H2) as [o [R M]]. exists (v ++ 0 :: o). split.
    + destruct a as [|d a]; [congruence|]. cbn [app length]. apply runs_begin; [eapply arg_head; eauto|].
      apply (arg_runs _ _ _ _ A (c :: t)); [right; eauto|]. apply runs_white_in; auto.
    + cbn [length make_argv]. rewrite read_ok by (eapply arg_nz; eauto). cbn [obind]. rewrite M. reflexivity.
Qed.

(** ** writes stay inside *)
Lemma count_len : forall l n r, count_slashes l = (n, r) -> (n + length r = length l)%nat.
Proof. intros l n r E. apply count_is in E. destruct E as [-> _]. rewrite app_length, repeat_length. lia. Qed.

Lemma loop_bound : forall f l q a n o, loop f l q a = Done (n, o) -> (length o <= length l + 1)%nat.
Proof.
  induction f as [|f IH]; intros l q a n o E; [discriminate|]. cbn [loop] in E.
  destruct l as [|c t]; [injection E as <- <-; cbn; lia|].
  destruct (q && negb a); [discriminate|].
  set (bg := if a then 0%nat else 1%nat) in *.
  assert (G : forall k b l' q' a', obind (loop f l' q' a') (fun '(n, out) => Done ((k + n)%nat, b ++ out)) = Done (n, o) ->
     (length b + length l' <= length (c :: t))%nat -> (length o <= length (c :: t) + 1)%nat).
  { intros k b l' q' a' E' L. destruct (loop f l' q' a') as [[n' o']| |] eqn:R; try discriminate. cbn in E'. injection E' as <- <-.
    apply IH in R. rewrite app_length. lia. }
  assert (G0 : forall b l' q' a', obind (loop f l' q' a') (fun '(n, out) => Done (n, b ++ out)) = Done (n, o) ->
     (length b + length l' <= length (c :: t))%nat -> (length o <= length (c :: t) + 1)%nat).
  { intros b l' q' a' E' L. apply (G 0%nat b l' q' a'); auto. }
  destruct (c =? 92).
  - destruct (count_slashes (c :: t)) as [k after] eqn:C. apply count_len in C.
    assert (D : (Nat.div2 k + Nat.div2 k <= k)%nat) by (pose proof (Nat.div2_odd k); destruct (Nat.odd k); cbn in *; lia).
    destruct (sw_dec 34 after) as [[r ->]|S].
    + cbn [length] in C. destruct (Nat.odd k) eqn:OD.
      * eapply G; [exact E|]. rewrite app_length, repeat_length. cbn [length].
        pose proof (Nat.div2_odd k) as DO. rewrite OD in DO. cbn in DO. lia.
      * eapply G; [exact E|]. rewrite repeat_length. cbn [length] in *. lia.
    + rewrite not34 in E by auto. eapply G; [exact E|]. rewrite repeat_length. lia.
  - destruct (c =? 34).
    + destruct (negb q); [eapply G; [exact E|cbn; lia]|].
      destruct (sw_dec 34 t) as [[r ->]|S].
      * eapply G; [exact E|]. cbn; lia.
      * rewrite not34 in E by auto. eapply G; [exact E|]. cbn; lia.
    + destruct (u8_is_whitespace_or_newline c).
      * destruct q; [eapply G0; [exact E|cbn; lia]|]. destruct a; eapply G0; try exact E; cbn; lia.
      * eapply G; [exact E|]. cbn; lia.
Qed.

Lemma complete : forall t args, line t args -> nz t -> windows_parse_command_line t = Done args.
Proof.
  intros t args L N. destruct (line_runs t args L N) as [o [R M]]. unfold windows_parse_command_line.
  pose proof (R (S (length t)) ltac:(lia)) as E. rewrite E. cbn [obind].
  apply loop_bound in E. replace (length o <=? length t + 1)%nat with true; auto. symmetry. apply Nat.leb_le. auto.
Qed.

(** ** every command line has a reading *)
Lemma arg_total : forall k t q, (length t <= k)%nat -> exists a rest v e, t = a ++ rest /\ arg q a v e /\
  (rest = [] \/ (e = false /\ exists c r, rest = c :: r /\ white c)) /\
  (t <> [] -> q = false -> (forall c r, t = c :: r -> ~ white c) -> a <> []) .
Proof.
  induction k as [|k IH]; intros t q L.
  - destruct t; [|cbn in L; lia]. exists [], [], [], q. split; [reflexivity|]. split; [constructor|]. split; [left; reflexivity|congruence].
  - destruct t as [|c t]; [exists [], [], [], q; split; [reflexivity|]; split; [constructor|]; split; [left; reflexivity|congruence]|]. cbn [length] in L.
    destruct (Z.eq_dec c 92) as [->|N92].
    + destruct (count_slashes (92 :: t)) as [n after] eqn:C. pose proof (count_len _ _ _ C) as CL. cbn [length] in CL.
      destruct (count_is _ _ _ C) as [EQ NS].
      assert (NP : (0 < n)%nat).
      { destruct n; [|lia]. cbn in EQ. exfalso. apply NS. exists t. auto. }
      assert (NEr : forall (x : list Z), repeat 92 n ++ x <> []) by (intros x; destruct n; [lia|discriminate]).
      destruct (sw_dec 34 after) as [[r ->]|S34].
      * cbn [length] in CL.
        destruct (Nat.Even_or_Odd n) as [[m ->]|[m ->]].
        -- destruct (IH (34 :: r) q) as (a & rest & v & e & E & A & RS & NEA); [cbn [length]; lia|].
           destruct a as [|d a].
           { (* the quote cannot be outside of the argument *)
             cbn in E. destruct RS as [->|(_ & c & r0 & E' & W)]; [discriminate|].
             rewrite E' in E. injection E as <- _. unfold white in W. lia. }
           cbn in E. injection E as <- E.
           exists (repeat 92 (2 * m) ++ 34 :: a), rest, (repeat 92 m ++ v), e. rewrite EQ, E, <- app_assoc. split; [reflexivity|].
           split; [apply arg_even; auto; [lia|eexists; eauto]|]. split; auto.
        -- destruct (IH r q) as (a & rest & v & e & E & A & RS & NEA); [lia|].
           exists (repeat 92 (2 * m + 1) ++ 34 :: a), rest, (repeat 92 m ++ 34 :: v), e. rewrite EQ, E, <- app_assoc. split; [reflexivity|].
           split; [apply arg_odd; auto|]. split; auto.
      * destruct (IH after q) as (a & rest & v & e & E & A & RS & NEA); [lia|].
        assert (S1 : ~ starts_with 92 a) by (intros [x ->]; apply NS; rewrite E; eexists; reflexivity).
        assert (S2 : ~ starts_with 34 a) by (intros [x ->]; apply S34; rewrite E; eexists; reflexivity).
        exists (repeat 92 n ++ a), rest, (repeat 92 n ++ v), e. rewrite EQ, E, <- app_assoc. split; [reflexivity|].
        split; [apply arg_slashes; auto|]. split; auto.
    + destruct (Z.eq_dec c 34) as [->|N34].
      * destruct q.
        -- destruct (sw_dec 34 t) as [[r ->]|S].
           ++ destruct (IH r true) as (a & rest & v & e & E & A & RS & NEA); [cbn in L; lia|].
              exists (34 :: 34 :: a), rest, (34 :: v), e. rewrite E. split; [reflexivity|]. split; [apply arg_double; auto|]. split; auto; congruence.
           ++ destruct (IH t false) as (a & rest & v & e & E & A & RS & NEA); [lia|].
              exists (34 :: a), rest, v, e. rewrite E. split; [reflexivity|].
              split; [apply arg_close; auto; intros [x ->]; apply S; rewrite E; eexists; reflexivity|]. split; auto; congruence.
        -- destruct (IH t true) as (a & rest & v & e & E & A & RS & NEA); [lia|].
           exists (34 :: a), rest, v, e. rewrite E. split; [reflexivity|]. split; [apply arg_open; auto|]. split; auto; congruence.
      * destruct (u8_is_whitespace_or_newline c) eqn:W.
        -- apply white_iff in W. destruct q.
           ++ destruct (IH t true) as (a & rest & v & e & E & A & RS & NEA); [lia|].
              exists (c :: a), rest, (c :: v), e. rewrite E. split; [reflexivity|]. split; [apply arg_char; auto; congruence|]. split; auto; congruence.
           ++ exists [], (c :: t), [], false. split; [reflexivity|]. split; [constructor|]. split; [right; split; auto; exists c, t; auto|].
              intros _ _ H. exfalso. eapply H; eauto.
        -- assert (NW : ~ white c) by (rewrite <- white_iff; congruence).
           destruct (IH t q) as (a & rest & v & e & E & A & RS & NEA); [lia|].
           exists (c :: a), rest, (c :: v), e. rewrite E. split; [reflexivity|]. split; [apply arg_char; auto|]. split; auto; congruence.
Qed.

Lemma line_total : forall k t, (length t <= k)%nat -> exists args, line t args.
Proof.
  induction k as [|k IH]; intros t L.
  - destruct t; [|cbn in L; lia]. exists []. constructor.
  - destruct t as [|c t]; [exists []; constructor|].
    destruct (u8_is_whitespace_or_newline c) eqn:W.
    + apply white_iff in W. destruct (IH t) as [args A]; [cbn in L; lia|]. exists args. constructor; auto.
    + assert (NW : ~ white c) by (rewrite <- white_iff; congruence).
      destruct (arg_total (length (c :: t)) (c :: t) false ltac:(lia)) as (a & rest & v & e & E & A & RS & NEA).
      assert (NA : a <> []) by (apply NEA; auto; [congruence|intros ? ? X; injection X as <- _; auto]).
      destruct RS as [->|(-> & d & r & -> & Wd)].
      * rewrite app_nil_r in E. rewrite E. exists [v]. eapply line_last; eauto.
      * destruct (IH r) as [args LA].
        { rewrite E in L. rewrite app_length in L. cbn [length] in L. lia. }
        rewrite E. exists (v :: args). constructor; auto.
Qed.

Lemma sound : forall t, nz t -> exists args, windows_parse_command_line t = Done args /\ line t args.
Proof.
  intros t N. destruct (line_total (length t) t ltac:(lia)) as [args L]. exists args. split; auto. apply complete; auto.
Qed.

(** ** quoting *)
Lemma escape_arg : forall a n, arg true (escape n a) (repeat 92 n ++ a) false.
Proof.
  induction a as [|c a IH]; intros n; cbn [escape].
  - assert (C : arg true [34] [] false) by (apply arg_close; [intros [x X]; discriminate|constructor]).
    destruct n; [exact C|]. apply arg_even; [lia|eexists; eauto|exact C].
  - destruct (Z.eqb_spec c 92) as [->|N1].
    + replace (repeat 92 n ++ 92 :: a) with (repeat 92 (S n) ++ a); [apply IH|].
      cbn [repeat]. rewrite repeat_cons, <- app_assoc. reflexivity.
    + destruct (Z.eqb_spec c 34) as [->|N2].
      * apply arg_odd. apply (IH 0%nat).
      * assert (C : arg true (c :: escape 0 a) (c :: a) false) by (apply arg_char; auto; [congruence|apply (IH 0%nat)]).
        destruct n; [exact C|]. apply arg_slashes; auto; [lia| |]; intros [x X]; congruence.
Qed.

Lemma quote_arg : forall a, arg false (quote a) a false.
Proof. intros. apply arg_open. apply (escape_arg a 0). Qed.

Lemma join_line : forall args, line (join args) args.
Proof.
  induction args as [|a args IH]; cbn [join]; [constructor|].
  destruct args as [|b args].
  - eapply line_last; [discriminate|apply quote_arg].
  - apply line_arg; [discriminate|apply quote_arg|left; auto|exact IH].
Qed.

Lemma nz_escape : forall a n, nz a -> nz (escape n a).
Proof.
  assert (RP : forall n, nz (repeat 92 n)) by (induction n; constructor; auto; lia).
  induction a as [|c a IH]; intros n N; cbn [escape]; unfold nz in *.
  - apply Forall_app. split; [apply RP|]. constructor; [lia|constructor].
  - inversion N; subst. destruct (c =? 92); [apply IH; auto|]. destruct (c =? 34); apply Forall_app; (split; [apply RP|]); constructor; auto; lia.
Qed.
Lemma nz_join : forall args, Forall nz args -> nz (join args).
Proof.
  induction args as [|a args IH]; intros N; cbn [join]; [constructor|]. inversion N; subst.
  assert (nz (quote a)) by (constructor; [lia|apply nz_escape; auto]).
  destruct args as [|b args]; auto. unfold nz in *. apply Forall_app. split; auto. constructor; [lia|]. apply IH; auto.
Qed.
