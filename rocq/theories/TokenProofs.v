(** Proofs about the tokenizer. *)
From Coq Require Import Ascii String.
From Verif Require Import Base StringProofs TokenModel TokenSpec.
Import ListNotations.
Close Scope string_scope.
Open Scope list_scope.

Definition hd_not (p : Z -> bool) (s : list Z) : Prop := match s with [] => True | c :: _ => p c = false end.
Lemma span_cut : forall p s, exists run r, s = run ++ r /\ Forall (fun c => p c = true) run /\ hd_not p r /\ span p s = length run.
Proof.
  induction s as [|c s IH]; [exists [], []; repeat split; constructor|]. cbn [span]. destruct (p c) eqn:P.
  - destruct IH as (run & r & -> & F & H & L). exists (c :: run), r. rewrite L. repeat split; auto.
  - exists [], (c :: s). repeat split; auto.
Qed.
Lemma while_cut : forall p pre r, exists run r', r = run ++ r' /\ Forall (fun c => p c = true) run /\ hd_not p r' /\ while_ p (pre ++ r) (length pre) = length (pre ++ run).
Proof.
  intros p pre r. destruct (span_cut p r) as (run & r' & -> & F & H & L). exists run, r'. repeat split; auto.
  unfold while_. rewrite skipn_app, skipn_all, Nat.sub_diag. cbn [skipn app]. rewrite L, app_length. reflexivity.
Qed.
Lemma peek_app : forall pre r, peek (pre ++ r) (length pre) = hd 0 r.
Proof. intros. unfold peek. rewrite app_nth2, Nat.sub_diag by lia. destruct r; reflexivity. Qed.

(** ** The classes of bytes *)
Lemma whitespace_blank : forall c, is_whitespace c = true <-> blank c.
Proof. intro c. unfold is_whitespace, blank. destruct (Z.eqb_spec c 11), (Z.eqb_spec c 9), (Z.eqb_spec c 12), (Z.eqb_spec c 32); cbn [orb]; split; intro H; try lia; try discriminate; reflexivity. Qed.
Lemma number_digit : forall c, is_number c = true <-> digit c.
Proof. intro c. unfold is_number, digit, between. rewrite andb_true_iff, !Z.leb_le. lia. Qed.
Lemma ident_ok : forall c, is_ident c = true <-> ident_char c.
Proof.
  intro c. unfold is_ident, ident_char, digit, letter, between, one_of. change (codes "_$") with [95; 36]. cbn [In]. rewrite !orb_true_iff, !andb_true_iff, !Z.leb_le, !Z.eqb_eq. lia.
Qed.
Lemma quote_ok : forall p q, (forall c, p c = true <-> q c) -> forall c, p c || (c =? 39) = true <-> spaced q c.
Proof. intros p q H c. unfold spaced, one_of. change (codes "'") with [39]. cbn [In]. rewrite orb_true_iff, H, Z.eqb_eq. intuition lia. Qed.
Lemma digit_quote_ok : forall c, is_digit_or_quote c = true <-> spaced digit c.
Proof. exact (quote_ok _ _ number_digit). Qed.
Lemma lor_outside : forall c, ~ 0 <= c < 256 -> ~ 0 <= Z.lor c 32 < 256.
Proof.
  intros c H R. destruct (Z.ltb_spec c 0) as [N|N]; [assert (Z.lor c 32 < 0) by (apply Z.lor_neg; left; exact N); lia|].
  assert (Z.shiftr (Z.lor c 32) 8 = Z.shiftr c 8) by (rewrite Z.shiftr_lor; apply Z.lor_0_r). rewrite !Z.shiftr_div_pow2 in H0 by lia. change (2 ^ 8) with 256 in H0.
  rewrite (Z.div_small (Z.lor c 32)) in H0 by lia. assert (1 <= c / 256) by (apply Z.div_le_lower_bound; lia). lia.
Qed.
Lemma hex_ok_byte : forall c, 0 <= c < 256 -> is_hex_number c = true <-> hex_digit c.
Proof.
  intros c H. unfold hex_digit, digit, between.
  inspect (fun c => Bool.eqb (is_hex_number c) (((48 <=? c) && (c <=? 57)) || (((65 <=? c) && (c <=? 70)) || ((97 <=? c) && (c <=? 102))))) 0 256%nat c.
  apply Bool.eqb_prop in INSPECTED. rewrite INSPECTED. rewrite !orb_true_iff, !andb_true_iff, !Z.leb_le. reflexivity.
Qed.
Lemma hex_ok : forall c, is_hex_number c = true <-> hex_digit c.
Proof.
  intro c. destruct (Z.leb_spec 0 c), (Z.ltb_spec c 256); try (apply hex_ok_byte; lia); pose proof (lor_outside c ltac:(lia)); unfold is_hex_number, is_number, hex_digit, digit, between; rewrite orb_true_iff, !andb_true_iff, !Z.leb_le; lia.
Qed.
Lemma class_forall : forall (p : Z -> bool) (q : Z -> Prop), (forall c, p c = true <-> q c) -> forall l, Forall (fun c => p c = true) l -> Forall q l.
Proof. intros p q H l F. induction F; constructor; [apply H; assumption|assumption]. Qed.
Lemma class_stops : forall (p : Z -> bool) (q : Z -> Prop), (forall c, p c = true <-> q c) -> forall l, hd_not p l -> stops q l.
Proof. intros p q H [|c l] S; [exact I|]. cbn in *. intro Q. apply H in Q. congruence. Qed.
Lemma low_or_byte : forall c k, 0 <= c < 256 -> 97 <= k <= 122 -> (Z.lor c 32 =? k) = true <-> c = k \/ c = k - 32.
Proof.
  intros c k H K. assert (E : (Z.lor c 32 =? k) = ((c =? k) || (c =? k - 32))).
  { assert (KS : In k (map Z.of_nat (seq 97 26))) by (apply in_map_iff; exists (Z.to_nat k); split; [lia|apply in_seq; lia]).
    inspect (fun c => forallb (fun k => Bool.eqb (Z.lor c 32 =? k) ((c =? k) || (c =? k - 32))) (map Z.of_nat (seq 97 26))) 0 256%nat c.
    rewrite forallb_forall in INSPECTED. apply Bool.eqb_prop. apply INSPECTED. exact KS. }
  rewrite E, orb_true_iff, !Z.eqb_eq. reflexivity.
Qed.
Lemma low_or : forall c k, 97 <= k <= 122 -> (Z.lor c 32 =? k) = true <-> c = k \/ c = k - 32.
Proof.
  intros c k K. destruct (Z.leb_spec 0 c), (Z.ltb_spec c 256); try (apply low_or_byte; lia); pose proof (lor_outside c ltac:(lia)); rewrite Z.eqb_eq; lia.
Qed.
Definition hex_quote_ok : forall c, is_hex_or_quote c = true <-> spaced hex_digit c := quote_ok _ _ hex_ok.

(** ** Literals and comments *)
Lemma starts_inv : forall p s, starts p s -> firstn (length p) s = p.
Proof. intros p s [r ->]. rewrite firstn_app, firstn_all, Nat.sub_diag, firstn_O. apply app_nil_r. Qed.

Lemma newlines_cons : forall c t, newlines (c :: t) = (if c =? 10 then 1 else 0) + newlines t.
Proof. intros c t. unfold newlines. cbn [count_occ]. destruct (Z.eq_dec c lf) as [->|N]; [change (lf =? 10) with true; cbv iota; lia|]. unfold lf in N. rewrite (proj2 (Z.eqb_neq c 10) N). lia. Qed.
Lemma newlines_app : forall a b, newlines (a ++ b) = newlines a + newlines b.
Proof. intros. unfold newlines. rewrite count_occ_app. lia. Qed.
Lemma newlines_none : forall t, ~ In lf t -> newlines t = 0.
Proof. intros t H. unfold newlines. rewrite (proj1 (count_occ_not_In Z.eq_dec t lf) H). reflexivity. Qed.

Lemma literal_step : forall q c s, literal q (c :: s) =
  if c =? 92 then
    match s with
    | [] => (2%nat, 0, true)
    | d :: s2 => if (d =? 13) && (hd 0 s2 =? 10) then let '(n, l, e) := literal q (tl s2) in (S (S (S n)), l + 1, e) else let '(n, l, e) := literal q s2 in (S (S n), l + (if d =? 10 then 1 else 0), e)
    end
  else if c =? q then (1%nat, 0, false) else if (c =? 0) || (c =? 10) then (0%nat, 0, true) else let '(n, l, e) := literal q s in (S n, l, e).
Proof.
  intros q c s. cbn [literal]. destruct (c =? 92); [|reflexivity]. destruct s as [|d s2]; [reflexivity|]. destruct s2 as [|e s3]; [|reflexivity]. cbn [hd]. change (0 =? 10) with false. rewrite andb_false_r. reflexivity.
Qed.
Lemma literal_ok : forall q, q <> 92 -> q <> 10 -> q <> 0 -> forall m s n l e, (length s <= m)%nat -> literal q s = (n, l, e) ->
  (n <= S (length s))%nat /\
  (if e : bool then forall body rest, s = body ++ q :: rest -> ~ escaped q body
   else exists body rest, s = body ++ q :: rest /\ n = S (length body) /\ escaped q body /\ l = newlines body).
Proof.
  intros q Q1 Q2 Q3. induction m as [|m IH]; intros s n l e L H.
  { destruct s; [|cbn in L; lia]. cbn [literal] in H. injection H as <- <- <-. split; [lia|]. intros [|] ? E; discriminate. }
  destruct s as [|c s]. { cbn [literal] in H. injection H as <- <- <-. split; [lia|]. intros [|] ? E; discriminate. }
  rewrite literal_step in H. cbn [length] in L. destruct (Z.eqb_spec c 92) as [->|C].
  - destruct s as [|d s2].
    { injection H as <- <- <-. split; [cbn; lia|]. intros [|x body] rest E X; [injection E as E; congruence|]. injection E as <- E. destruct body; discriminate. }
    destruct ((d =? 13) && (hd 0 s2 =? 10)) eqn:D.
    + apply andb_true_iff in D. destruct D as [D1 D2]. apply Z.eqb_eq in D1. subst d. destruct s2 as [|e2 s3]; [discriminate|]. cbn [hd tl] in *. apply Z.eqb_eq in D2. subst e2.
      destruct (literal q s3) as [[n' l'] e'] eqn:E'. injection H as <- <- <-. cbn [length] in L. destruct (IH s3 n' l' e' ltac:(lia) E') as [B G]. split; [cbn [length]; lia|]. destruct e'.
      * intros body rest E X. destruct body as [|x body]; [injection E as E; congruence|]. injection E as <- E. destruct body as [|y body]; [injection E as E _; inversion X; congruence|]. injection E as <- E.
        inversion X; subst; try congruence. { apply H1. split; [reflexivity|]. destruct body as [|z body]; [injection E as E; congruence|]. injection E as <- E. reflexivity. }
        injection E as E. exact (G _ _ E H0).
      * destruct G as (body & rest & -> & -> & X & ->). exists (92 :: 13 :: 10 :: body), rest. repeat split; [exact (escaped_crlf q body X)|]. rewrite !newlines_cons. change (92 =? 10) with false. change (13 =? 10) with false. change (10 =? 10) with true. cbv iota. lia.
    + destruct (literal q s2) as [[n' l'] e'] eqn:E'. injection H as <- <- <-. cbn [length] in L. destruct (IH s2 n' l' e' ltac:(lia) E') as [B G]. split; [cbn [length]; lia|]. destruct e'.
      * intros body rest E X. destruct body as [|x body]; [injection E as E; congruence|]. injection E as <- E. destruct body as [|y body]; [injection E as E _; inversion X; congruence|]. injection E as <- E.
        inversion X; subst; try congruence. { exact (G _ _ eq_refl H2). } { unfold cr, lf in D. discriminate D. }
      * destruct G as (body & rest & -> & -> & X & ->). exists (92 :: d :: body), rest. repeat split; [|rewrite !newlines_cons; change (92 =? 10) with false; cbv iota; lia].
        apply escaped_pair; [|exact X]. intros [-> Y]. destruct body as [|z body]; [destruct Y|]. cbn in Y. subst z. discriminate D.
  - destruct (Z.eqb_spec c q) as [->|N].
    { injection H as <- <- <-. split; [cbn; lia|]. exists [], s. repeat split. constructor. }
    destruct ((c =? 0) || (c =? 10)) eqn:T.
    { injection H as <- <- <-. split; [lia|]. intros body rest E X. destruct body as [|x body]; [injection E as E; congruence|]. injection E as <- E. apply orb_true_iff in T. rewrite !Z.eqb_eq in T.
      inversion X; subst; try congruence. unfold lf, nul in *. lia. }
    apply orb_false_iff in T. destruct T as [T1 T2]. apply Z.eqb_neq in T1, T2. destruct (literal q s) as [[n' l'] e'] eqn:E'. injection H as <- <- <-. destruct (IH s n' l' e' ltac:(lia) E') as [B G]. split; [cbn [length]; lia|]. destruct e'.
    + intros body rest E X. destruct body as [|x body]; [injection E as E; congruence|]. injection E as <- E. inversion X; subst; try congruence. exact (G _ _ eq_refl H5).
    + destruct G as (body & rest & -> & -> & X & ->). exists (c :: body), rest. repeat split; [constructor; assumption|]. rewrite newlines_cons, (proj2 (Z.eqb_neq c 10) T2). lia.
Qed.

Definition since (t : list Z) : option nat := if in_dec Z.eq_dec lf t then Some (since_newline t) else None.
Lemma since_cons : forall c t, since (c :: t) = if c =? 10 then match since t with Some k => Some k | None => Some (length t) end else since t.
Proof.
  intros c t. unfold since. cbn [since_newline]. destruct (in_dec Z.eq_dec lf (c :: t)) as [I|N], (in_dec Z.eq_dec lf t) as [I2|N2].
  - destruct (c =? 10); reflexivity.
  - destruct I as [->|I]; [|contradiction]. change (lf =? 10) with true. cbv iota. f_equal. destruct t; [reflexivity|]. cbn [since_newline]. destruct (in_dec _ _ _); [contradiction|]. reflexivity.
  - exfalso. apply N. right. exact I2.
  - destruct (Z.eqb_spec c 10) as [->|]; [exfalso; apply N; left; reflexivity|reflexivity].
Qed.
Lemma comment_ok : forall s n l k e, comment s = (n, l, k, e) ->
  (n <= length s)%nat /\
  (if e : bool then forall body rest, s = body ++ [42; 47] ++ rest -> In nul body
   else exists body rest, s = body ++ [42; 47] ++ rest /\ n = length body /\ ~ In nul body /\ (forall a b, body ++ [42] <> a ++ [42; 47] ++ b) /\ l = newlines body /\ k = since body).
Proof.
  induction s as [|c s IH]; intros n l k e H; cbn [comment] in H.
  { injection H as <- <- <- <-. split; [lia|]. intros [|] ? E; discriminate. }
  destruct (Z.eqb_spec c 0) as [->|C].
  { injection H as <- <- <- <-. split; [lia|]. intros [|x body] rest E; [discriminate|]. injection E as <- E. left. reflexivity. }
  destruct ((peek (c :: s) 1 =? 47) && (c =? 42)) eqn:D.
  { injection H as <- <- <- <-. apply andb_true_iff in D. destruct D as [D1 D2]. apply Z.eqb_eq in D1, D2. subst c. unfold peek in D1. cbn [nth] in D1. destruct s as [|x s]; [discriminate|]. cbn [nth] in D1. subst x. split; [lia|].
    exists [], s. repeat split; [intros []|]. intros [|a [|b a']] b' E; discriminate. }
  destruct (comment s) as [[[n' l'] k'] e'] eqn:E'. specialize (IH n' l' k' e' eq_refl). destruct IH as [B G].
  assert (R : (n, l, k, e) = if c =? 10 then (S n', l' + 1, match k' with Some k => Some k | None => Some n' end, e') else (S n', l', k', e')) by (destruct (c =? 10); congruence). clear H.
  assert (n = S n' /\ e = e') as [-> ->] by (destruct (c =? 10); split; congruence). split; [cbn [length]; lia|]. destruct e'.
  - intros [|x body] rest E; [exfalso; injection E as -> ->; discriminate D|]. injection E as <- E. right. exact (G body rest E).
  - destruct G as (body & rest & -> & -> & X1 & X2 & -> & ->). exists (c :: body), rest. repeat split.
    + intros [->|I]; [exact (C eq_refl)|contradiction].
    + intros [|a a'] b E; [|injection E as <- E; exact (X2 a' b E)]. injection E as -> E. unfold peek in D. destruct body as [|y body]; [discriminate|]. injection E as -> E. discriminate D.
    + rewrite newlines_cons. destruct (c =? 10); injection R as -> ->; lia.
    + rewrite since_cons. destruct (c =? 10); injection R as -> ->; reflexivity.
Qed.

(** ** Numbers *)
Lemma peek_is : forall pre r c, c <> 0 -> (peek (pre ++ r) (length pre) =? c) = true -> exists r', r = c :: r'.
Proof. intros pre r c C H. rewrite peek_app in H. apply Z.eqb_eq in H. destruct r as [|x r]; cbn [hd] in H; [congruence|]. subst x. eexists. reflexivity. Qed.
Lemma peek_not : forall pre r c, (peek (pre ++ r) (length pre) =? c) = false -> stops (eq c) r.
Proof. intros pre r c H. rewrite peek_app in H. destruct r as [|x r]; [exact I|]. cbn [hd] in H. apply Z.eqb_neq in H. cbn. congruence. Qed.
Lemma stops_weak : forall (p q : Z -> Prop) r, (forall c, q c -> p c) -> stops p r -> stops q r.
Proof. intros p q [|c r] H S; [exact I|]. cbn in *. intro Q. apply S, H, Q. Qed.
Lemma length_snoc : forall (pre : list Z) c, length (pre ++ [c]) = S (length pre).
Proof. intros. rewrite app_length. cbn. lia. Qed.
Lemma snoc_app : forall (pre : list Z) c r, pre ++ c :: r = (pre ++ [c]) ++ r.
Proof. intros. rewrite <- app_assoc. reflexivity. Qed.

Lemma while_class : forall p (q : Z -> Prop), (forall c, p c = true <-> q c) -> forall pre r, exists run r', r = run ++ r' /\ Forall q run /\ stops q r' /\ while_ p (pre ++ r) (length pre) = length (pre ++ run).
Proof.
  intros p q H pre r. destruct (while_cut p pre r) as (run & r' & E & F & S & W). exists run, r'. repeat split; [exact E|exact (class_forall p q H run F)|exact (class_stops p q H r' S)|exact W].
Qed.
Lemma while_class_snoc : forall p (q : Z -> Prop), (forall c, p c = true <-> q c) -> forall pre c r, exists run r', r = run ++ r' /\ Forall q run /\ stops q r' /\ while_ p (pre ++ c :: r) (S (length pre)) = length (pre ++ c :: run).
Proof.
  intros p q H pre c r. destruct (while_class p q H (pre ++ [c]) r) as (run & r' & E & F & S & W). exists run, r'. repeat split; auto. rewrite length_snoc in W. rewrite <- !snoc_app in W. exact W.
Qed.

Lemma fraction_ok : forall p q, (forall c, p c = true <-> spaced q c) -> forall pre r, exists fr r', r = fr ++ r' /\ optional (fraction q r') fr /\ (fr = [] -> stops (one_of ".") r') /\
  (if peek (pre ++ r) (length pre) =? 46 then fr <> [] /\ while_ p (pre ++ r) (S (length pre)) = length (pre ++ fr) else fr = []).
Proof.
  intros p q H pre r. destruct (peek (pre ++ r) (length pre) =? 46) eqn:E.
  - apply peek_is in E; [|lia]. destruct E as [r' ->]. destruct (while_class_snoc p _ H pre 46 r') as (run & r2 & -> & F & S & W). exists (46 :: run), r2. repeat split; [right; exists run; auto|discriminate|discriminate|exact W].
  - exists [], r. repeat split; [left; reflexivity|]. intros _. apply (stops_weak _ _ _) with (2 := peek_not _ _ _ E). intros c C. change (one_of "." c) with (In c [46]) in C. destruct C as [C|[]]. exact C.
Qed.
Lemma sign_ok : forall pre r, exists s r', r = s ++ r' /\ optional sign s /\ (s = [] -> stops (one_of "+-") r') /\ exponent_sign (pre ++ r) (length pre) = length (pre ++ s).
Proof.
  intros pre r. unfold exponent_sign. destruct (_ || _) eqn:E.
  - apply orb_true_iff in E. destruct E as [E|E]; apply peek_is in E; try lia; destruct E as [r' ->]; [exists [45]|exists [43]]; exists r'; (split; [reflexivity|split; [right; unfold sign; auto|split; [discriminate|rewrite length_snoc; reflexivity]]]).
  - apply orb_false_iff in E. destruct E as [E1 E2]. apply peek_not in E1, E2. exists [], r. repeat split; [left; reflexivity| |rewrite app_nil_r; reflexivity]. intros _. destruct r as [|x r]; [exact I|]. cbn in *. intro C. change (one_of "+-" x) with (In x [43; 45]) in C. cbn in C. intuition congruence.
Qed.
Lemma exponent_ok : forall pre r, exists ex r', r = ex ++ r' /\ optional (exponent "eE" r') ex /\ (ex = [] -> stops (one_of "eE") r') /\
  (if Z.lor (peek (pre ++ r) (length pre)) 32 =? 101 then ex <> [] /\ while_ is_digit_or_quote (pre ++ r) (exponent_sign (pre ++ r) (S (length pre))) = length (pre ++ ex) else ex = []).
Proof.
  intros pre r. rewrite peek_app. destruct (Z.lor (hd 0 r) 32 =? 101) eqn:E.
  - apply low_or in E; [|lia]. destruct r as [|x r]; [cbn [hd] in E; lia|]. cbn [hd] in E.
    destruct (sign_ok (pre ++ [x]) r) as (s & r2 & -> & S1 & S2 & S3). rewrite length_snoc, <- !snoc_app in S3.
    destruct (while_class _ _ digit_quote_ok (pre ++ x :: s) r2) as (run & r3 & -> & F & S4 & W). exists (x :: s ++ run), r3.
    split; [cbn [app]; rewrite <- app_assoc; reflexivity|]. split; [|split; [discriminate|split; [discriminate|]]].
    + right. exists x, s, run. repeat split; auto. change (one_of "eE" x) with (In x [101; 69]). cbn. lia.
    + rewrite S3. replace (pre ++ x :: s ++ run ++ r3) with ((pre ++ x :: s) ++ run ++ r3) by (rewrite <- app_assoc; reflexivity). rewrite W. rewrite <- app_assoc. reflexivity.
  - exists [], r. repeat split; [left; reflexivity|]. intros _. destruct r as [|x r]; [exact I|]. cbn [hd stops] in *. intro C. change (one_of "eE" x) with (In x [101; 69]) in C. assert (x = 101 \/ x = 101 - 32) as C2 by (cbn in C; lia). apply low_or in C2; [congruence|lia].
Qed.

Lemma decimal_ok : forall t pre r, Forall (spaced digit) pre -> exists run r1 text rest fl,
  r = run ++ r1 /\ Forall (spaced digit) run /\ stops (spaced digit) r1 /\ pre ++ r = text ++ rest /\ decimal t (pre ++ r) (length pre) = (length text, if fl : bool then Float_literal else t) /\ decimal_text fl (pre ++ run) text rest
  /\ (fl = false -> stops (one_of ".") r1).
Proof.
  intros t pre r P. destruct (while_class _ _ digit_quote_ok pre r) as (run & r1 & -> & F1 & S1 & W1).
  destruct (fraction_ok _ digit digit_quote_ok (pre ++ run) r1) as (fr & r2 & -> & F2 & S2 & W2).
  destruct (exponent_ok (pre ++ run ++ fr) r2) as (ex & r3 & -> & F3 & S3 & W3).
  destruct (while_class _ _ ident_ok (pre ++ run ++ fr ++ ex) r3) as (su & rest & -> & F4 & S4 & W4).
  exists run, (fr ++ ex ++ su ++ rest), (pre ++ run ++ fr ++ ex ++ su), rest.
  exists (match fr, ex with [], [] => false | _, _ => true end).
  repeat rewrite <- app_assoc in *. repeat split; auto.
  - unfold decimal. rewrite W1. destruct (peek (pre ++ run ++ fr ++ ex ++ su ++ rest) (length (pre ++ run)) =? 46).
    + destruct W2 as [N2 W2]. rewrite W2. destruct (Z.lor _ 32 =? 101).
      * destruct W3 as [N3 W3]. unfold exponent_sign in W3. rewrite W3, W4. destruct fr; [congruence|]. destruct ex; [congruence|]. reflexivity.
      * subst ex. rewrite ?app_nil_r in *. cbn [app] in *. rewrite W4. destruct fr; [congruence|]. reflexivity.
    + subst fr. rewrite ?app_nil_r in *. cbn [app] in *. rewrite ?app_nil_r in *. destruct (Z.lor _ 32 =? 101).
      * destruct W3 as [N3 W3]. unfold exponent_sign in W3. rewrite W3, W4. destruct ex; [congruence|]. reflexivity.
      * subst ex. cbn [app] in *. rewrite ?app_nil_r in W4. rewrite W4. reflexivity.
  - exists fr, ex, su. repeat rewrite <- app_assoc. repeat split; auto.
    + apply Forall_app. split; assumption.
    + destruct fr, ex; intro; try discriminate; [right|left|left]; discriminate.
    + destruct fr, ex; intros [H|H]; congruence.
  - destruct fr; [|discriminate]. intros _. exact (S2 eq_refl).
Qed.

Lemma suffix_ok : forall pre r, exists su rest, r = su ++ rest /\ suffix su /\ stops ident_char rest /\ while_ is_ident (pre ++ r) (length pre) = length (pre ++ su).
Proof. exact (while_class _ _ ident_ok). Qed.
Lemma hex_exponent_ok : forall pre r, exists ex r', r = ex ++ r' /\ optional (hex_exponent r') ex /\ (ex = [] -> stops (one_of "pP") r') /\
  (if Z.lor (peek (pre ++ r) (length pre)) 32 =? 112 then ex <> [] /\ exponent_sign (pre ++ r) (S (length pre)) = length (pre ++ ex) else ex = []).
Proof.
  intros pre r. rewrite peek_app. destruct (Z.lor (hd 0 r) 32 =? 112) eqn:E.
  - apply low_or in E; [|lia]. destruct r as [|x r]; [cbn [hd] in E; lia|]. cbn [hd] in E.
    destruct (sign_ok (pre ++ [x]) r) as (s & r2 & -> & S1 & S2 & S3). rewrite length_snoc, <- !snoc_app in S3. exists (x :: s), r2. repeat split; try discriminate; [|exact S3].
    right. exists x, s. repeat split; auto. change (one_of "pP" x) with (In x [112; 80]). cbn. lia.
  - exists [], r. repeat split; [left; reflexivity|]. intros _. destruct r as [|x r]; [exact I|]. cbn [hd stops] in *. intro C. change (one_of "pP" x) with (In x [112; 80]) in C. assert (x = 112 \/ x = 112 - 32) as C2 by (cbn in C; lia). apply low_or in C2; [congruence|lia].
Qed.
Lemma based_ok : forall p q x r, (forall c, p c = true <-> spaced q c) -> exists ds su rest, r = ds ++ su ++ rest /\ Forall (spaced q) ds /\ stops (spaced q) (su ++ rest) /\ suffix su /\ stops ident_char rest
  /\ while_ is_ident (48 :: x :: r) (while_ p (48 :: x :: r) 2) = length (48 :: x :: ds ++ su).
Proof.
  intros p q x r H. destruct (while_class p _ H [48; x] r) as (ds & r1 & -> & F & S & W). destruct (suffix_ok ([48; x] ++ ds) r1) as (su & rest & -> & F2 & S2 & W2).
  exists ds, su, rest. repeat split; auto. cbn [length app] in *. rewrite W. exact W2.
Qed.
Lemma binary_ok : forall c, (c =? 48) || (c =? 49) || (c =? 39) = true <-> spaced (between 48 49) c.
Proof. intro c. unfold spaced, between. change (one_of "'" c) with (In c [39]). cbn [In]. rewrite !orb_true_iff, !Z.eqb_eq. lia. Qed.
Lemma octal_class_ok : forall c, ((48 <=? c) && (c <=? 55)) || (c =? 39) = true <-> spaced (between 48 55) c.
Proof. intro c. unfold spaced, between. change (one_of "'" c) with (In c [39]). cbn [In]. rewrite orb_true_iff, andb_true_iff, !Z.leb_le, Z.eqb_eq. lia. Qed.

Definition numeric (t : type) : Prop := In t [Float_hex_literal; Hex_literal; Binary_literal; Octal_literal; Base10_literal; Float_literal].
Lemma stops_none : forall r, stops (one_of "") r.
Proof. intros [|c r]; [exact I|]. intros []. Qed.

Lemma not_digit_hd : forall r, (48 <=? hd 0 r) && (hd 0 r <=? 57) = false -> ~ begins digit r.
Proof. intros [|c r] H; [intros []|]. cbn [hd begins] in *. unfold digit, between. intro D. rewrite andb_false_iff, !Z.leb_gt in H. lia. Qed.
Lemma digit_spaced : forall c, digit c -> spaced digit c.
Proof. intros c H. left. exact H. Qed.
Lemma begins_run : forall run r1, stops (spaced digit) r1 -> begins digit (run ++ r1) -> begins digit run.
Proof. intros [|c run] r1 S B; [|exact B]. cbn [app] in B. destruct r1 as [|c r1]; [destruct B|]. exfalso. exact (S (or_introl B)). Qed.

Lemma zero_ok : forall r, exists text rest t, 48 :: r = text ++ rest /\ text <> [] /\ numeric t /\ zero_literal (48 :: r) = (length text, t) /\ lexeme t text rest.
Proof.
  intro r. unfold zero_literal. replace (peek (48 :: r) 1) with (hd 0 r) by (destruct r; reflexivity).
  destruct (Z.lor (hd 0 r) 32 =? 120) eqn:X.
  { apply low_or in X; [|lia]. destruct r as [|x r]; [cbn [hd] in X; lia|]. cbn [hd] in X. assert (XO : one_of "xX" x) by (change (one_of "xX" x) with (In x [120; 88]); cbn; lia).
    destruct (while_class _ _ hex_quote_ok [48; x] r) as (ds & r1 & -> & F1 & S1 & W1). change (length [48; x]) with 2%nat in W1. change ([48; x] ++ ds ++ r1) with (48 :: x :: ds ++ r1) in W1. rewrite W1. clear W1.
    change (48 :: x :: ds ++ r1) with (([48; x] ++ ds) ++ r1).
    destruct (fraction_ok _ hex_digit hex_quote_ok ([48; x] ++ ds) r1) as (fr & r2 & -> & F2 & S2 & W2).
    destruct (hex_exponent_ok ([48; x] ++ ds ++ fr) r2) as (ex & r3 & -> & F3 & S3 & W3).
    destruct (suffix_ok ([48; x] ++ ds ++ fr ++ ex) r3) as (su & rest & -> & F4 & S4 & W4).
    exists (48 :: x :: ds ++ fr ++ ex ++ su), rest. exists (match fr, ex with [], [] => Hex_literal | _, _ => Float_hex_literal end).
    split; [cbn [app]; repeat rewrite <- app_assoc; reflexivity|]. split; [discriminate|]. split; [destruct fr, ex; unfold numeric; cbn; auto|].
    cbn [app] in *. repeat rewrite <- app_assoc in *. cbn [app] in *.
    assert (LX : lexeme (match fr, ex with [], [] => Hex_literal | _, _ => Float_hex_literal end) (48 :: x :: ds ++ fr ++ ex ++ su) rest).
    { destruct fr as [|f fr], ex as [|e ex].
      - cbn [app lexeme] in *. exists x, ds, su. repeat split; auto. destruct (su ++ rest) as [|y z] eqn:Q; [exact I|]. intro C. change (one_of ".pP" y) with (In y [46; 112; 80]) in C. specialize (S2 eq_refl). specialize (S3 eq_refl). cbn [stops] in S2, S3. change (one_of "." y) with (In y [46]) in S2. change (one_of "pP" y) with (In y [112; 80]) in S3. cbn in *. intuition.
      - exists x, ds, [], (e :: ex), su. repeat split; auto. right. discriminate.
      - exists x, ds, (f :: fr), [], su. repeat split; auto. left. discriminate.
      - exists x, ds, (f :: fr), (e :: ex), su. repeat split; auto. left. discriminate. }
    split; [|exact LX]. destruct (peek _ _ =? 46).
    - destruct W2 as [N2 W2]. rewrite W2. destruct fr as [|f fr]; [congruence|]. destruct (Z.lor _ 32 =? 112).
      + destruct W3 as [N3 W3]. cbn [app] in *. rewrite W3, W4. reflexivity.
      + subst ex. rewrite ?app_nil_r in *. cbn [app] in *. rewrite W4. reflexivity.
    - subst fr. cbn [app] in *. rewrite ?app_nil_r in *. destruct (Z.lor _ 32 =? 112).
      + destruct W3 as [N3 W3]. cbn [app] in *. rewrite W3, W4. destruct ex; [congruence|reflexivity].
      + subst ex. cbn [app] in *. rewrite ?app_nil_r in *. rewrite W4. reflexivity. }
  destruct (Z.lor (hd 0 r) 32 =? 98) eqn:B.
  { apply low_or in B; [|lia]. destruct r as [|x r]; [cbn [hd] in B; lia|]. cbn [hd] in B. destruct (based_ok _ (between 48 49) x r binary_ok) as (ds & su & rest & -> & F & S & F2 & S2 & W).
    exists (48 :: x :: ds ++ su), rest, Binary_literal. repeat split; [cbn [app]; rewrite <- app_assoc; reflexivity|discriminate|unfold numeric; cbn; auto|rewrite W; reflexivity|].
    exists x, ds, su. repeat split; auto; [change (one_of "bB" x) with (In x [98; 66]); cbn; lia|apply stops_none]. }
  destruct (Z.lor (hd 0 r) 32 =? 111) eqn:O.
  { apply low_or in O; [|lia]. destruct r as [|x r]; [cbn [hd] in O; lia|]. cbn [hd] in O. destruct (based_ok _ (between 48 55) x r octal_class_ok) as (ds & su & rest & -> & F & S & F2 & S2 & W).
    exists (48 :: x :: ds ++ su), rest, Octal_literal. repeat split; [cbn [app]; rewrite <- app_assoc; reflexivity|discriminate|unfold numeric; cbn; auto|rewrite W; reflexivity|].
    right. exists x, ds, su. repeat split; auto; [change (one_of "oO" x) with (In x [111; 79]); cbn; lia|apply stops_none]. }
  assert (NB : forall c r', r = c :: r' -> ~ one_of "xXbBoO" c).
  { intros c r' -> C. cbn [hd] in *. change (one_of "xXbBoO" c) with (In c [120; 88; 98; 66; 111; 79]) in C.
    assert (c = 120 \/ c = 120 - 32 \/ (c = 98 \/ c = 98 - 32) \/ (c = 111 \/ c = 111 - 32)) as [C2|[C2|[C2|C2]]] by (cbn in C; lia).
    - assert (C3 : c = 120 \/ c = 120 - 32) by lia. apply low_or in C3; [congruence|lia].
    - assert (C3 : c = 120 \/ c = 120 - 32) by lia. apply low_or in C3; [congruence|lia].
    - apply low_or in C2; [congruence|lia].
    - apply low_or in C2; [congruence|lia]. }
  assert (P48 : Forall (spaced digit) [48]) by (constructor; [left; unfold digit, between; lia|constructor]).
  assert (NT : forall text rest, 48 :: r = text ++ rest -> not_based text).
  { intros text rest E c [C [z Z]]. rewrite Z in E. cbn in E. injection E as E. exact (NB c _ E C). }
  destruct ((48 <=? hd 0 r) && (hd 0 r <=? 57)) eqn:D.
  - assert (DB : begins digit r) by (destruct r as [|c r]; [discriminate|]; cbn [hd begins] in *; unfold digit, between; rewrite andb_true_iff, !Z.leb_le in D; lia).
    destruct (decimal_ok Octal_literal [48] r P48) as (run & r1 & text & rest & fl & -> & F & S & E & DE & DT & DOT). cbn [length app] in *.
    exists text, rest, (if fl then Float_literal else Octal_literal). pose proof (begins_run run r1 S DB) as BR.
    split; [exact E|]. split; [intros ->; destruct DT as (? & ? & ? & T & _); discriminate|]. split; [destruct fl; unfold numeric; cbn; auto 8|]. split; [exact DE|]. destruct fl.
    + exists (48 :: run). split; [exact DT|]. split; [exact (NT text rest E)|]. left. cbn. unfold digit, between. lia.
    + left. exists (48 :: run). repeat split; [exact DT|exact BR].
  - apply not_digit_hd in D. destruct (decimal_ok Base10_literal [] (48 :: r) (Forall_nil _)) as (run & r1 & text & rest & fl & E0 & F & S & E & DE & DT & DOT). cbn [length app] in *.
    destruct run as [|x run]; [exfalso; cbn [app] in E0; subst r1; apply S; left; unfold digit, between; lia|]. cbn [app] in E0. injection E0 as <- E0.
    exists text, rest, (if fl then Float_literal else Base10_literal).
    split; [exact E|]. split; [intros ->; destruct DT as (? & ? & ? & T & _); discriminate|]. split; [destruct fl; unfold numeric; cbn; auto 8|]. split; [exact DE|]. destruct fl.
    + exists (48 :: run). split; [exact DT|]. split; [exact (NT text rest E)|]. left. cbn. unfold digit, between. lia.
    + exists (48 :: run). split; [exact DT|]. split; [cbn; unfold digit, between; lia|]. split; [exact (NT text rest E)|]. intros [_ B2]. cbn [tl] in B2. apply D. rewrite E0. destruct run; [destruct B2|exact B2].
Qed.

(** ** No newline inside *)
Definition not_lf (c : Z) : Prop := c <> 10.
Lemma no_lf : forall t, Forall not_lf t -> ~ In lf t.
Proof. intros t F I. rewrite Forall_forall in F. exact (F lf I eq_refl). Qed.
Lemma forall_weak : forall (p q : Z -> Prop) t, (forall c, p c -> q c) -> Forall p t -> Forall q t.
Proof. intros p q t H F. induction F; constructor; auto. Qed.
Lemma ident_not_lf : forall c, ident_char c -> not_lf c.
Proof. intros c H ->. unfold ident_char, digit, letter, between in H. change (one_of "_$" 10) with (In 10 [95; 36]) in H. cbn in H. lia. Qed.
Lemma spaced_not_lf : forall (d : Z -> Prop), (forall c, d c -> 48 <= c) -> forall c, spaced d c -> not_lf c.
Proof. intros d D c [H|H] ->; [apply D in H; lia|]. change (one_of "'" 10) with (In 10 [39]) in H. cbn in H. lia. Qed.
Lemma digit_48 : forall c, digit c -> 48 <= c.
Proof. unfold digit, between. lia. Qed.
Lemma hex_48 : forall c, hex_digit c -> 48 <= c.
Proof. unfold hex_digit, digit, between. lia. Qed.
Lemma sign_not_lf : forall s, optional sign s -> Forall not_lf s.
Proof. intros s [->|[->| ->]]; repeat constructor; discriminate. Qed.
Lemma fraction_not_lf : forall (d : Z -> Prop) r fr, (forall c, d c -> 48 <= c) -> optional (fraction d r) fr -> Forall not_lf fr.
Proof. intros d r fr D [->|(ds & -> & F & _)]; [constructor|]. constructor; [discriminate|]. exact (forall_weak _ _ _ (spaced_not_lf d D) F). Qed.
Lemma one_of_not_lf : forall x c, ~ In 10 (codes x) -> one_of x c -> not_lf c.
Proof. intros x c H O ->. exact (H O). Qed.
Ltac codes_10 := cbn; lia.
Lemma decimal_text_not_lf : forall fl ds text rest, decimal_text fl ds text rest -> Forall not_lf text.
Proof.
  intros fl ds text rest (fr & ex & su & -> & F1 & _ & F2 & _ & F3 & _ & F4 & _). repeat (apply Forall_app; split).
  - exact (forall_weak _ _ _ (spaced_not_lf _ digit_48) F1).
  - exact (fraction_not_lf _ _ _ digit_48 F2).
  - destruct F3 as [->|(x & s & d & -> & X & S & _ & F & _)]; [constructor|]. constructor; [apply (one_of_not_lf "eE"); [codes_10|exact X]|]. apply Forall_app. split; [apply sign_not_lf; exact S|exact (forall_weak _ _ _ (spaced_not_lf _ digit_48) F)].
  - exact (forall_weak _ _ _ ident_not_lf F4).
Qed.
Lemma based_not_lf : forall x no (d : Z -> Prop) text rest, ~ In 10 (codes x) -> (forall c, d c -> 48 <= c) -> based x no d text rest -> Forall not_lf text.
Proof.
  intros x no d text rest X D (c & ds & su & -> & C & F1 & _ & _ & F2 & _). constructor; [discriminate|]. constructor; [exact (one_of_not_lf x c X C)|]. apply Forall_app. split; [exact (forall_weak _ _ _ (spaced_not_lf d D) F1)|exact (forall_weak _ _ _ ident_not_lf F2)].
Qed.
Lemma numeric_not_lf : forall t text rest, numeric t -> lexeme t text rest -> Forall not_lf text.
Proof.
  intros t text rest N L. unfold numeric in N. cbn [In] in N. destruct N as [<-|[<-|[<-|[<-|[<-|[<-|[]]]]]]]; cbn [lexeme] in L.
  - destruct L as (c & ds & fr & ex & su & -> & C & F1 & _ & F2 & _ & F3 & _ & F4 & _). constructor; [discriminate|]. constructor; [apply (one_of_not_lf "xX"); [codes_10|exact C]|]. repeat (apply Forall_app; split).
    + exact (forall_weak _ _ _ (spaced_not_lf _ hex_48) F1).
    + exact (fraction_not_lf _ _ _ hex_48 F2).
    + destruct F3 as [->|(x & s & -> & X & S & _)]; [constructor|]. constructor; [apply (one_of_not_lf "pP"); [codes_10|exact X]|apply sign_not_lf; exact S].
    + exact (forall_weak _ _ _ ident_not_lf F4).
  - apply (based_not_lf "xX" ".pP" hex_digit text rest); [codes_10|exact hex_48|exact L].
  - apply (based_not_lf "bB" "" (between 48 49) text rest); [codes_10|unfold between; lia|exact L].
  - destruct L as [(ds & L & _)|L]; [exact (decimal_text_not_lf _ _ _ _ L)|]. apply (based_not_lf "oO" "" (between 48 55) text rest); [codes_10|unfold between; lia|exact L].
  - destruct L as (ds & L & _). exact (decimal_text_not_lf _ _ _ _ L).
  - destruct L as (ds & L & _). exact (decimal_text_not_lf _ _ _ _ L).
Qed.

(** ** One token *)
Definition exact_lines (s : list Z) (r : scanned) (line : Z) (text : list Z) : Prop :=
  normal_lines s -> (kind r = Character_literal -> ~ In lf text) -> line_after r = line + newlines text.
Definition exact_columns (s : list Z) (r : scanned) (column : Z) (text : list Z) : Prop :=
  normal_lines s -> (kind r = Character_literal \/ kind r = String_literal -> ~ In lf text) -> (kind r = Comment -> starts (codes "/*") text -> In lf text) -> ~ (exists a, text = a ++ [lf; cr]) ->
  column_after r = if in_dec Z.eq_dec lf text then 1 + Z.of_nat (since_newline text) else column + Z.of_nat (length text).
Definition good (line column : Z) (s : list Z) (r : scanned) : Prop :=
  (1 <= size r <= length s + 2)%nat /\
  if error r then malformed (kind r) s
  else exists text rest, s = text ++ rest /\ size r = length text /\ lexeme (kind r) text rest /\ exact_lines s r line text /\ exact_columns s r column text.

Lemma good_token : forall line column t text rest, text <> [] -> ~ In lf text -> lexeme t text rest -> good line column (text ++ rest) (token line column t (length text)).
Proof.
  intros line column t text rest N L X. split; [cbn [size token]; rewrite app_length; destruct text; [congruence|cbn; lia]|]. cbn [error token]. exists text, rest. split; [reflexivity|]. split; [reflexivity|]. split; [exact X|]. split.
  - intros _ _. cbn [line_after token]. rewrite newlines_none by exact L. lia.
  - intros _ _ _ _. cbn [column_after token]. destruct (in_dec _ _ _); [contradiction|reflexivity].
Qed.

(** *** Punctuators *)
Fixpoint completion (text sp : list Z) : option (list Z) :=
  match text, sp with [], _ :: _ => Some sp | a :: text, b :: sp => if a =? b then completion text sp else None | _, _ => None end.
Definition longer (text : list Z) : list (list Z) := flat_map (fun x => match completion text (fst x) with Some c => [c] | None => [] end) spellings.
Lemma completion_starts : forall text sp rest, starts sp (text ++ rest) -> (length text < length sp)%nat -> exists c, completion text sp = Some c /\ starts c rest.
Proof.
  induction text as [|a text IH]; intros sp rest [r E] L; cbn [app] in *.
  - destruct sp as [|b sp]; [cbn in L; lia|]. exists (b :: sp). split; [reflexivity|]. exists r. exact E.
  - destruct sp as [|b sp]; [cbn in L; lia|]. cbn [app] in E. injection E as <- E. cbn [completion]. rewrite Z.eqb_refl. apply IH; [exists r; exact E|cbn in L; lia].
Qed.
Lemma greedy : forall text rest, Forall (fun c => ~ starts c rest) (longer text) -> forall sp p, In (sp, p) spellings -> starts sp (text ++ rest) -> (length sp <= length text)%nat.
Proof.
  intros text rest F sp p I S. destruct (Nat.leb_spec (length sp) (length text)) as [L|L]; [exact L|]. exfalso. destruct (completion_starts text sp rest S L) as (c & C & SC).
  rewrite Forall_forall in F. apply (F c); [|exact SC]. unfold longer. apply in_flat_map. exists (sp, p). split; [exact I|]. cbn [fst]. rewrite C. left. reflexivity.
Qed.
Definition slash_ok (text rest : list Z) : Prop := text = [47] -> hd 0 rest <> 42 /\ hd 0 rest <> 47.
Lemma spelling_facts : forall text p, In (text, p) spellings -> text <> [] /\ ~ In lf text /\ (forall x, text = 47 :: x -> x = [] \/ x = [61]).
Proof.
  intros text p H. assert (B : forallb (fun x => negb (Nat.eqb (length (fst x)) 0) && negb (existsb (Z.eqb 10) (fst x)) && (negb (hd 0 (fst x) =? 47) || (Nat.eqb (length (fst x)) 1) || ((Nat.eqb (length (fst x)) 2) && (nth 1 (fst x) 0 =? 61)))) spellings = true) by (vm_compute; reflexivity).
  rewrite forallb_forall in B. specialize (B _ H). cbn [fst] in B. rewrite !andb_true_iff in B. destruct B as [[B1 B2] B3]. repeat split.
  - intros ->. discriminate.
  - intro I. apply negb_true_iff in B2. assert (E : existsb (Z.eqb 10) text = true) by (apply existsb_exists; exists lf; split; [exact I|reflexivity]). congruence.
  - intros x ->. cbn [hd] in B3. change (47 =? 47) with true in B3. cbn [negb orb] in B3. destruct x as [|a [|b x]]; [left; reflexivity| |discriminate]. right. cbn in B3. apply Z.eqb_eq in B3. rewrite B3. reflexivity.
Qed.
Lemma good_punct : forall line column p text rest, In (text, p) spellings -> Forall (fun c => ~ starts c rest) (longer text) -> slash_ok text rest -> (text = [46] -> stops digit rest) ->
  good line column (text ++ rest) (punctuator line column p (length text)).
Proof.
  intros line column p text rest I F S D. destruct (spelling_facts text p I) as (N & L & SL). apply good_token; [exact N|exact L|]. cbn [lexeme]. split; [exact I|]. split; [exact (greedy text rest F)|].
  assert (NS : forall k, k = 42 \/ k = 47 -> ~ starts [47; k] (text ++ rest)).
  { intros k K [r E]. destruct text as [|a x]; [congruence|]. cbn [app] in E. injection E as -> E. destruct (SL x eq_refl) as [->| ->].
    - destruct (S eq_refl) as [S1 S2]. cbn [app] in E. rewrite E in S1, S2. cbn [hd] in S1, S2. lia.
    - cbn [app] in E. injection E as E _. lia. }
  split; [apply (NS 42); auto|]. split; [apply (NS 47); auto|exact D].
Qed.
Lemma not_starts_1 : forall c s k, hd 0 s <> c -> c <> 0 -> ~ starts (c :: k) s.
Proof. intros c s k H N [r ->]. apply H. reflexivity. Qed.
Lemma not_starts_2 : forall a b s, ~ (hd 0 s = a /\ nth 1 s 0 = b) -> ~ starts [a; b] s.
Proof. intros a b s H [r ->]. apply H. split; reflexivity. Qed.

(** *** Literals *)
Lemma split_first : forall (q : Z) a b x y, a ++ q :: x = b ++ q :: y -> ~ In q a -> ~ In q b -> a = b /\ x = y.
Proof.
  induction a as [|c a IH]; intros b x y E A B; destruct b as [|d b]; cbn [app] in E.
  - injection E as E. auto.
  - exfalso. apply B. left. congruence.
  - exfalso. apply A. left. congruence.
  - injection E as <- E. destruct (IH b x y E) as [-> ->]; [intro H; apply A; right; exact H|intro H; apply B; right; exact H|auto].
Qed.
Lemma prefix_facts : forall p, string_prefix p -> ~ In 34 p /\ ~ In lf p.
Proof. intros p H. unfold string_prefix in H. cbn in H. repeat (destruct H as [<-|H]; [split; cbn; unfold lf; lia|]). destruct H. Qed.
Lemma character_prefix_facts : forall p, character_prefix p -> ~ In 39 p /\ ~ In lf p.
Proof. intros p H. unfold character_prefix in H. cbn in H. repeat (destruct H as [<-|H]; [split; cbn; unfold lf; lia|]). destruct H. Qed.
Lemma skipn_prefix : forall (p : list Z) q s, skipn (S (length p)) (p ++ q :: s) = s.
Proof. intros. rewrite snoc_app, <- length_snoc with (c := q). rewrite skipn_app, skipn_all, Nat.sub_diag. reflexivity. Qed.
Lemma quoted_length : forall (p body : list Z) q, length (p ++ q :: body ++ [q]) = (S (length p) + S (length body))%nat.
Proof. intros. rewrite app_length. cbn [length]. rewrite app_length. cbn [length]. lia. Qed.

Lemma good_string : forall line column p s1, string_prefix p -> good line column (p ++ 34 :: s1) (string_token line column (p ++ 34 :: s1) (length p)).
Proof.
  intros line column p s1 P. destruct (prefix_facts p P) as [PQ PL]. unfold string_token. rewrite skipn_prefix. destruct (literal 34 s1) as [[n l] e] eqn:L. destruct (literal_ok 34 ltac:(lia) ltac:(lia) ltac:(lia) (length s1) s1 n l e (le_n _) L) as [B G].
  split; [cbn [size]; rewrite app_length; cbn [length]; lia|]. cbn [error kind]. destruct e.
  - cbn [malformed]. split; [exists p; split; [exact P|exists s1; rewrite <- app_assoc; reflexivity]|]. intros text rest E (p' & body & -> & P' & X). rewrite <- app_assoc in E. cbn [app] in E. rewrite <- app_assoc in E.
    destruct (split_first 34 p p' _ _ E PQ (proj1 (prefix_facts p' P'))) as [<- E2]. exact (G body rest E2 X).
  - destruct G as (body & rest & -> & -> & X & ->). exists (p ++ 34 :: body ++ [34]), rest. cbn [size kind line_after column_after]. rewrite quoted_length.
    split; [rewrite <- app_assoc; cbn [app]; rewrite <- app_assoc; reflexivity|]. split; [reflexivity|]. split; [exists p, body; auto|]. split.
    + intros _ _. cbn [line_after]. rewrite newlines_app, newlines_cons, newlines_app, (newlines_none p PL). change (newlines [34]) with 0. change (34 =? 10) with false. cbv iota. lia.
    + intros _ H _ _. cbn [column_after kind] in *. specialize (H (or_intror eq_refl)). destruct (in_dec _ _ _); [contradiction|]. rewrite quoted_length. reflexivity.
Qed.
Lemma good_character : forall line column p s1, character_prefix p -> good line column (p ++ 39 :: s1) (character_token line column (p ++ 39 :: s1) (length p)).
Proof.
  intros line column p s1 P. destruct (character_prefix_facts p P) as [PQ PL]. unfold character_token. rewrite skipn_prefix. destruct (literal 39 s1) as [[n l] e] eqn:L. destruct (literal_ok 39 ltac:(lia) ltac:(lia) ltac:(lia) (length s1) s1 n l e (le_n _) L) as [B G].
  split; [cbn [size]; rewrite app_length; cbn [length]; lia|]. cbn [error kind]. destruct e.
  - cbn [malformed]. split; [exists p; split; [exact P|exists s1; rewrite <- app_assoc; reflexivity]|]. intros text rest E (p' & body & -> & P' & X). rewrite <- app_assoc in E. cbn [app] in E. rewrite <- app_assoc in E.
    destruct (split_first 39 p p' _ _ E PQ (proj1 (character_prefix_facts p' P'))) as [<- E2]. exact (G body rest E2 X).
  - destruct G as (body & rest & -> & -> & X & ->). exists (p ++ 39 :: body ++ [39]), rest. cbn [size kind line_after column_after]. rewrite quoted_length.
    split; [rewrite <- app_assoc; cbn [app]; rewrite <- app_assoc; reflexivity|]. split; [reflexivity|]. split; [exists p, body; auto|]. split.
    + intros _ H. cbn [line_after kind] in *. rewrite newlines_none by (exact (H eq_refl)). lia.
    + intros _ H _ _. cbn [column_after kind] in *. specialize (H (or_introl eq_refl)). destruct (in_dec _ _ _); [contradiction|]. rewrite quoted_length. reflexivity.
Qed.

(** *** Comments *)
Lemma since_app : forall a b, since_newline (a ++ b) = if in_dec Z.eq_dec lf b then since_newline b else if in_dec Z.eq_dec lf a then (since_newline a + length b)%nat else length (a ++ b).
Proof.
  induction a as [|c a IH]; intro b; cbn [app].
  - destruct (in_dec Z.eq_dec lf b) as [I|N]; [reflexivity|]. destruct (in_dec Z.eq_dec lf []) as [[]|_]. destruct b; [reflexivity|]. cbn [since_newline]. destruct (in_dec Z.eq_dec lf (z :: b)); [contradiction|reflexivity].
  - cbn [since_newline]. destruct (in_dec Z.eq_dec lf (c :: a ++ b)) as [I|N].
    + rewrite IH. destruct (in_dec Z.eq_dec lf b) as [I2|N2]; [reflexivity|]. destruct (in_dec Z.eq_dec lf a) as [I3|N3]; destruct (in_dec Z.eq_dec lf (c :: a)) as [I4|N4]; try reflexivity.
      * exfalso. apply N4. right. exact I3.
      * destruct a as [|z a]; [reflexivity|]. cbn [since_newline]. destruct (in_dec Z.eq_dec lf (z :: a)); [contradiction|]. rewrite app_length. reflexivity.
      * exfalso. destruct I as [->|I]; [apply N4; left; reflexivity|]. apply in_app_iff in I. destruct I; contradiction.
    + destruct (in_dec Z.eq_dec lf b) as [I2|N2]; [exfalso; apply N; right; apply in_app_iff; right; exact I2|]. destruct (in_dec Z.eq_dec lf (c :: a)) as [I4|N4]; [|reflexivity].
      exfalso. apply N. destruct I4 as [->|I4]; [left; reflexivity|right; apply in_app_iff; left; exact I4].
Qed.
Lemma good_block : forall line column s1, good line column (47 :: 42 :: s1) (block_comment line column (47 :: 42 :: s1)).
Proof.
  intros line column s1. unfold block_comment. cbn [skipn]. destruct (comment s1) as [[[n l] k] e] eqn:C. destruct (comment_ok s1 n l k e C) as [B G].
  split; [cbn [size length]; lia|]. cbn [error kind]. destruct e.
  - cbn [malformed]. split; [exists s1; reflexivity|]. intros text rest E (body & -> & NN & _). change (codes "/*") with [47; 42] in E. change (codes "*/") with [42; 47] in E. cbn [app] in E. injection E as E. rewrite <- app_assoc in E. exact (NN (G body rest E)).
  - destruct G as (body & rest & -> & -> & X1 & X2 & -> & ->). exists (47 :: 42 :: body ++ [42; 47]), rest. cbn [size].
    assert (LEN : length (47 :: 42 :: body ++ [42; 47]) = (2 + length body + 2)%nat) by (cbn [length]; rewrite app_length; cbn; lia).
    split; [cbn [app]; rewrite <- app_assoc; reflexivity|]. split; [rewrite LEN; reflexivity|]. split; [left; exists body; repeat split; assumption|]. split.
    + intros _ _. cbn [line_after]. rewrite !newlines_cons, newlines_app. change (newlines [42; 47]) with 0. change (47 =? 10) with false. change (42 =? 10) with false. cbv iota. lia.
    + intros _ _ H _. cbn [kind column_after] in *. assert (I : In lf (47 :: 42 :: body ++ [42; 47])) by (apply H; [reflexivity|exists (body ++ [42; 47]); reflexivity]).
      destruct (in_dec Z.eq_dec lf (47 :: 42 :: body ++ [42; 47])) as [_|NI]; [|contradiction].
      assert (IB : In lf body). { destruct I as [I|[I|I]]; [discriminate|discriminate|]. apply in_app_iff in I. destruct I as [I|[I|[I|[]]]]; [exact I|discriminate|discriminate]. }
      unfold since. destruct (in_dec Z.eq_dec lf body) as [_|NI]; [|contradiction].
      change (47 :: 42 :: body ++ [42; 47]) with ([47; 42] ++ (body ++ [42; 47])). rewrite since_app. destruct (in_dec Z.eq_dec lf (body ++ [42; 47])) as [_|NI]; [|exfalso; apply NI; apply in_app_iff; left; exact IB].
      rewrite since_app. destruct (in_dec Z.eq_dec lf [42; 47]) as [[Q|[Q|[]]]|_]; try discriminate. destruct (in_dec Z.eq_dec lf body) as [_|NI]; [|contradiction]. cbn [length]. lia.
Qed.
Lemma line_class : forall c, negb (c =? 0) && negb (c =? 10) = true <-> c <> nul /\ c <> lf.
Proof. intro c. unfold nul, lf. rewrite andb_true_iff, !negb_true_iff, !Z.eqb_neq. reflexivity. Qed.
Lemma good_line : forall line column s1, good line column (47 :: 47 :: s1) (line_comment line column (47 :: 47 :: s1)).
Proof.
  intros line column s1. destruct (while_class _ _ line_class [47; 47] s1) as (run & r & -> & F & S & W). unfold line_comment. cbn [length app] in W. rewrite W. change (47 :: 47 :: run ++ r) with ((47 :: 47 :: run) ++ r).
  assert (NL : ~ In lf run) by (intro I; rewrite Forall_forall in F; destruct (F lf I) as [_ Q]; congruence).
  apply (good_token line column Comment (47 :: 47 :: run) r).
  - discriminate.
  - intros [I|[I|I]]; [discriminate|discriminate|contradiction].
  - right. exists run. split; [reflexivity|]. split; [exact NL|]. split; [intro I; rewrite Forall_forall in F; destruct (F nul I) as [Q _]; congruence|]. destruct r as [|c r]; [left; reflexivity|]. right. cbn in *. unfold lf, nul in *. lia.
Qed.

(** *** White space and newlines *)
Lemma blank_not_lf : forall t, Forall blank t -> ~ In lf t.
Proof. intros t F I. rewrite Forall_forall in F. specialize (F lf I). unfold blank, lf in F. lia. Qed.
Lemma good_newline : forall line column t text rest (r : scanned), text <> [] -> kind r = t -> t <> Comment -> t <> Character_literal -> t <> String_literal -> lexeme t text rest -> size r = length text -> error r = false -> line_after r = line + 1 -> column_after r = 1 ->
  (normal_lines (text ++ rest) -> exists a b, text = a ++ lf :: b /\ ~ In lf a /\ (b = [] \/ b = [cr])) -> good line column (text ++ rest) r.
Proof.
  intros line column t text rest r N K T1 T2 T3 X Z E LA CA H. split; [rewrite Z, app_length; destruct text; [congruence|cbn; lia]|]. rewrite E, K. exists text, rest. split; [reflexivity|]. split; [exact Z|]. split; [exact X|]. split.
  - intros NL _. destruct (H NL) as (a & b & -> & NA & B). rewrite LA, newlines_app, newlines_cons, (newlines_none a NA). destruct B as [->| ->]; reflexivity.
  - intros NL _ _ NE. destruct (H NL) as (a & b & -> & NA & B). destruct B as [->| ->]; [|exfalso; apply NE; exists a; reflexivity]. rewrite CA. destruct (in_dec _ _ _) as [_|NI]; [|exfalso; apply NI; apply in_app_iff; right; left; reflexivity].
    rewrite since_app. destruct (in_dec Z.eq_dec lf [lf]) as [_|NI]; [|exfalso; apply NI; left; reflexivity]. reflexivity.
Qed.
Lemma hd_is : forall (r : list Z) c, c <> 0 -> (hd 0 r =? c) = true -> exists r', r = c :: r'.
Proof. intros [|x r] c C H; apply Z.eqb_eq in H; cbn [hd] in H; [congruence|]. subst x. eexists. reflexivity. Qed.
Lemma hd_not_is : forall (r : list Z) c, (hd 0 r =? c) = false -> stops (eq c) r.
Proof. intros [|x r] c H; [exact I|]. cbn [hd stops] in *. apply Z.eqb_neq in H. congruence. Qed.
Lemma normal_cr : forall a r, normal_lines (a ++ cr :: r) -> begins (eq lf) r.
Proof. intros a r H. exact (H a r eq_refl). Qed.

Lemma good_backslash : forall line column s1, good line column (92 :: s1) (backslash line column (92 :: s1)).
Proof.
  intros line column s1. destruct (while_class _ _ whitespace_blank [92] s1) as (bs & r & -> & F & ST & W). unfold backslash. cbn [length app] in W. rewrite W. clear W. change (S (length bs)) with (length (92 :: bs)).
  pose proof (blank_not_lf bs F) as NB. change (92 :: bs ++ r) with ((92 :: bs) ++ r). assert (NB2 : ~ In lf (92 :: bs)) by (intros [Q|Q]; [discriminate|contradiction]).
  rewrite !peek_app. destruct (hd 0 r =? 10) eqn:E10.
  - apply hd_is in E10; [|lia]. destruct E10 as [r1 ->]. rewrite snoc_app. replace (S (length (92 :: bs))) with (length ((92 :: bs) ++ [10])) by (rewrite length_snoc; reflexivity). rewrite peek_app. destruct (hd 0 r1 =? 13) eqn:E13.
    + apply hd_is in E13; [|lia]. destruct E13 as [r2 ->]. rewrite snoc_app. apply (good_newline line column Whitespace); try discriminate; try reflexivity.
      * right. exists bs, [lf; cr]. split; [rewrite <- app_assoc; reflexivity|]. split; [exact F|]. left. unfold newline_text. cbn. auto.
      * cbn [size]. rewrite !app_length. cbn. lia.
      * intros _. exists (92 :: bs), [cr]. split; [rewrite <- app_assoc; reflexivity|]. split; [exact NB2|right; reflexivity].
    + apply (good_newline line column Whitespace); try discriminate; try reflexivity.
      * right. exists bs, [lf]. split; [reflexivity|]. split; [exact F|]. left. unfold newline_text. cbn. auto.
      * intros _. exists (92 :: bs), []. split; [reflexivity|]. split; [exact NB2|left; reflexivity].
  - destruct (hd 0 r =? 13) eqn:E13.
    + apply hd_is in E13; [|lia]. destruct E13 as [r1 ->]. rewrite snoc_app. replace (S (length (92 :: bs))) with (length ((92 :: bs) ++ [13])) by (rewrite length_snoc; reflexivity). rewrite peek_app. destruct (hd 0 r1 =? 10) eqn:E.
      * apply hd_is in E; [|lia]. destruct E as [r2 ->]. rewrite snoc_app. apply (good_newline line column Whitespace); try discriminate; try reflexivity.
        -- right. exists bs, [cr; lf]. split; [rewrite <- app_assoc; reflexivity|]. split; [exact F|]. left. unfold newline_text. cbn. auto.
        -- cbn [size]. rewrite !app_length. cbn. lia.
        -- intros _. exists ((92 :: bs) ++ [13]), []. split; [reflexivity|]. split; [intro Q; apply in_app_iff in Q; destruct Q as [Q|[Q|[]]]; [contradiction|discriminate]|left; reflexivity].
      * apply (good_newline line column Whitespace); try discriminate; try reflexivity.
        -- right. exists bs, [cr]. split; [reflexivity|]. split; [exact F|]. left. unfold newline_text. cbn. auto.
        -- intro NL. exfalso. rewrite <- snoc_app in NL. apply normal_cr in NL. destruct r1 as [|x r1]; [destruct NL|]. cbn in NL, E. subst x. discriminate.
    + apply (good_token line column Whitespace (92 :: bs) r); [discriminate|exact NB2|]. right. exists bs, []. split; [rewrite app_nil_r; reflexivity|]. split; [exact F|]. right. split; [reflexivity|]. split; [exact ST|].
      destruct r as [|x r]; [exact I|]. cbn [hd stops] in *. apply Z.eqb_neq in E10, E13. unfold lf, cr. lia.
Qed.
Lemma good_lf : forall line column s1, good line column (10 :: s1) (newline line (if peek (10 :: s1) 1 =? 13 then 2 else 1)).
Proof.
  intros line column s1. change (peek (10 :: s1) 1) with (nth 0 s1 0). replace (nth 0 s1 0) with (hd 0 s1) by (destruct s1; reflexivity). destruct (hd 0 s1 =? 13) eqn:E.
  - apply hd_is in E; [|lia]. destruct E as [r ->]. change (10 :: 13 :: r) with ([10; 13] ++ r). apply (good_newline line column Newline); try discriminate; try reflexivity; [unfold lexeme, newline_text; cbn; auto|]. intros _. exists [], [cr]. repeat split; [intros []|right; reflexivity].
  - change (10 :: s1) with ([10] ++ s1). apply (good_newline line column Newline); try discriminate; try reflexivity; [unfold lexeme, newline_text; cbn; auto|]. intros _. exists [], []. repeat split; [intros []|left; reflexivity].
Qed.
Lemma good_cr : forall line column s1, good line column (13 :: s1) (newline line (if peek (13 :: s1) 1 =? 10 then 2 else 1)).
Proof.
  intros line column s1. change (peek (13 :: s1) 1) with (nth 0 s1 0). replace (nth 0 s1 0) with (hd 0 s1) by (destruct s1; reflexivity). destruct (hd 0 s1 =? 10) eqn:E.
  - apply hd_is in E; [|lia]. destruct E as [r ->]. change (13 :: 10 :: r) with ([13; 10] ++ r). apply (good_newline line column Newline); try discriminate; try reflexivity; [unfold lexeme, newline_text; cbn; auto|]. intros _. exists [13], []. repeat split; [intros [Q|[]]; discriminate|left; reflexivity].
  - change (13 :: s1) with ([13] ++ s1). apply (good_newline line column Newline); try discriminate; try reflexivity; [unfold lexeme, newline_text; cbn; auto|]. intros NL. exfalso. apply (normal_cr []) in NL. destruct s1 as [|x r1]; [destruct NL|]. cbn in NL, E. subst x. discriminate.
Qed.
Lemma good_blank : forall line column c s1, is_whitespace c = true -> good line column (c :: s1) (token line column Whitespace (while_ is_whitespace (c :: s1) 1)).
Proof.
  intros line column c s1 C. destruct (while_class _ _ whitespace_blank [c] s1) as (run & r & -> & F & S & W). cbn [length app] in W. rewrite W. change (c :: run ++ r) with ((c :: run) ++ r). apply whitespace_blank in C.
  assert (F2 : Forall blank (c :: run)) by (constructor; assumption). apply (good_token line column Whitespace (c :: run) r); [discriminate|exact (blank_not_lf _ F2)|]. left. split; [discriminate|]. split; assumption.
Qed.
Lemma good_identifier : forall line column c s1, is_ident c = true -> is_number c = false ->
  (forall text rest, c :: s1 = text ++ rest -> (string_prefix text -> stops (one_of (String """" EmptyString)) rest) /\ (character_prefix text -> stops (one_of "'") rest) \/ text = []) ->
  good line column (c :: s1) (identifier line column (c :: s1)).
Proof.
  intros line column c s1 C D H. destruct (while_class _ _ ident_ok [c] s1) as (run & r & -> & F & S & W). unfold identifier. cbn [length app] in W. rewrite W. change (c :: run ++ r) with ((c :: run) ++ r) in *. apply ident_ok in C.
  assert (F2 : Forall ident_char (c :: run)) by (constructor; assumption). apply (good_token line column Identifier (c :: run) r); [discriminate|exact (no_lf _ (forall_weak _ _ _ ident_not_lf F2))|].
  destruct (H (c :: run) r eq_refl) as [[H1 H2]|Q]; [|discriminate]. split; [discriminate|]. split; [exact F2|]. split; [cbn [begins]; intro B; apply number_digit in B; congruence|]. split; [exact S|]. split; assumption.
Qed.
Lemma good_zero : forall line column s1, good line column (48 :: s1) (number line column (zero_literal (48 :: s1))).
Proof.
  intros line column s1. destruct (zero_ok s1) as (text & rest & t & E & N & NU & Z & L). rewrite Z, E. unfold number. cbn [fst snd]. apply good_token; [exact N|exact (no_lf _ (numeric_not_lf t text rest NU L))|exact L].
Qed.

Lemma good_decimal : forall line column c s1, 49 <= c <= 57 -> good line column (c :: s1) (number line column (decimal Base10_literal (c :: s1) 0)).
Proof.
  intros line column c s1 C. destruct (decimal_ok Base10_literal [] (c :: s1) (Forall_nil _)) as (run & r1 & text & rest & fl & E0 & F & ST & E & DE & DT & DOT). cbn [length app] in *.
  destruct run as [|x run]; [exfalso; cbn [app] in E0; subst r1; apply ST; left; unfold digit, between; lia|]. cbn [app] in E0. injection E0 as <- E0.
  rewrite DE, E. unfold number. cbn [fst snd]. assert (NE : text <> []) by (intros ->; destruct DT as (? & ? & ? & T & _); discriminate).
  assert (NB : not_based text). { intros k [_ [z Z]]. rewrite Z in E. cbn in E. injection E as E _. lia. }
  apply good_token; [exact NE|exact (no_lf _ (decimal_text_not_lf _ _ _ _ DT))|]. destruct fl.
  - exists (c :: run). split; [exact DT|]. split; [exact NB|]. left. cbn. unfold digit, between. lia.
  - exists (c :: run). split; [exact DT|]. split; [cbn; unfold digit, between; lia|]. split; [exact NB|]. intros [B _]. cbn in B. lia.
Qed.
Lemma good_dot : forall line column s1, is_number (hd 0 s1) = true -> good line column (46 :: s1) (number line column (decimal Base10_literal (46 :: s1) 0)).
Proof.
  intros line column s1 D. destruct s1 as [|d s1]; [discriminate|]. cbn [hd] in D. apply number_digit in D.
  destruct (decimal_ok Base10_literal [] (46 :: d :: s1) (Forall_nil _)) as (run & r1 & text & rest & fl & E0 & F & ST & E & DE & DT & DOT). cbn [length app] in *.
  destruct run as [|x run]; [|exfalso; cbn [app] in E0; injection E0 as <- E0; inversion F as [|? ? Q _]; subst; destruct Q as [Q|Q]; [unfold digit, between in Q; lia|change (one_of "'" 46) with (In 46 [39]) in Q; cbn in Q; lia]]. cbn [app] in E0. subst r1.
  destruct fl; [|exfalso; apply (DOT eq_refl); left; reflexivity].
  rewrite DE, E. unfold number. cbn [fst snd]. pose proof DT as DT0. destruct DT as (fr & ex & su & T & _ & S1 & F2 & S2 & F3 & S3 & F4 & S4 & FL). cbn [app] in T.
  assert (TT : text = 46 :: tl text /\ begins digit (tl text)).
  { assert (E' : 46 :: d :: s1 = fr ++ ex ++ su ++ rest) by (rewrite E, T; repeat rewrite <- app_assoc; reflexivity). destruct F2 as [->|(ds & -> & F2 & S5)].
    - exfalso. specialize (S2 eq_refl). cbn [app] in E'. rewrite <- E' in S2. apply S2. left. reflexivity.
    - subst text. change (codes ".") with [46] in *. cbn [app tl] in *. split; [reflexivity|]. injection E' as E'. destruct ds as [|y ds]; cbn [app] in *; [rewrite <- E' in S5; exfalso; apply S5; left; exact D|]. injection E' as <- _. exact D. }
  destruct TT as [T1 T2]. apply good_token; [rewrite T1; discriminate|exact (no_lf _ (decimal_text_not_lf _ _ _ _ DT0))|].
  exists []. split; [exact DT0|]. split; [intros k [_ [z Z]]; rewrite T1 in Z; discriminate|]. right. auto.
Qed.

Ltac in_spellings := vm_compute; repeat (first [left; reflexivity | right]).
Ltac no_longer := match goal with |- Forall _ ?l => let l' := eval vm_compute in l in change l with l' end; repeat constructor; intros [rr EE]; cbn [app] in EE; subst; match goal with H : _ = false |- _ => discriminate H end.
Ltac punct1 := match goal with |- good ?l ?c (?k :: ?s) (punctuator _ _ ?p _) => apply (good_punct l c p [k] s); [in_spellings|no_longer|try discriminate|try discriminate] end.
Ltac punct2 := match goal with |- good ?l ?c (?k :: ?k2 :: ?s) (punctuator _ _ ?p _) => apply (good_punct l c p [k; k2] s); [in_spellings|no_longer|discriminate|discriminate] end.
Ltac punct3 := match goal with |- good ?l ?c (?k :: ?k2 :: ?k3 :: ?s) (punctuator _ _ ?p _) => apply (good_punct l c p [k; k2; k3] s); [in_spellings|no_longer|discriminate|discriminate] end.

Lemma peek1 : forall c s, peek (c :: s) 1 = hd 0 s.
Proof. intros c [|d s]; reflexivity. Qed.
Lemma peek2 : forall c s, peek (c :: s) 2 = hd 0 (tl s).
Proof. intros c [|d [|e s]]; reflexivity. Qed.
Ltac known := match goal with H : (hd 0 (tl ?s) =? ?k) = true |- _ => apply hd_is in H; [destruct H as [? H]|lia] | H : (hd 0 ?s =? ?k) = true |- _ => apply hd_is in H; [destruct H as [? ->]|lia]; cbn [hd tl] in * end.

Lemma byte_classes : forall c, 0 <= c < 256 -> (is_ident c = true /\ is_number c = false) \/ is_number c = true \/ is_whitespace c = true \/ ((0 <=? c) && (c <=? 8)) || ((14 <=? c) && (c <=? 31)) || (c =? 127) = true
  \/ In c [92; 10; 13; 64; 96; 35; 61; 40; 41; 123; 125; 91; 93; 59; 58; 44; 46; 62; 60; 126; 33; 63; 43; 45; 38; 124; 94; 42; 47; 37; 39; 34].
Proof.
  intros c H. inspect (fun c => (is_ident c && negb (is_number c)) || is_number c || is_whitespace c || (((0 <=? c) && (c <=? 8)) || ((14 <=? c) && (c <=? 31)) || (c =? 127)) || existsb (Z.eqb c) [92; 10; 13; 64; 96; 35; 61; 40; 41; 123; 125; 91; 93; 59; 58; 44; 46; 62; 60; 126; 33; 63; 43; 45; 38; 124; 94; 42; 47; 37; 39; 34]) 0 256%nat c.
  apply orb_true_iff in INSPECTED. destruct INSPECTED as [I|I].
  - apply orb_true_iff in I. destruct I as [I|I]; [|auto]. apply orb_true_iff in I. destruct I as [I|I]; [|auto]. apply orb_true_iff in I. destruct I as [I|I]; [|auto]. apply andb_true_iff in I. rewrite negb_true_iff in I. auto.
  - apply existsb_exists in I. destruct I as (x & I & E). apply Z.eqb_eq in E. subst x. auto.
Qed.

Ltac go := lazymatch goal with
  | |- good _ _ _ (if (hd 0 ?s =? ?k) then _ else _) =>
      let E := fresh "E" in destruct (hd 0 s =? k) eqn:E; [apply hd_is in E; [destruct E as [? E]; subst s; cbn [hd tl] in *|lia]; go|go]
  | |- good _ _ _ (punctuator _ _ _ 3) => punct3
  | |- good _ _ _ (punctuator _ _ _ 2) => punct2
  | |- good _ _ _ (punctuator _ _ _ 1) => punct1
  | |- _ => idtac
  end.
Ltac next c := lazymatch goal with |- good _ _ _ (if c =? ?k then _ else _) => let E := fresh "E" in destruct (Z.eqb_spec c k) as [E|E]; [subst c|] end.

Lemma scan_ok : forall line column c s1, 0 <= c < 256 -> good line column (c :: s1) (scan line column (c :: s1)).
Proof.
  intros line column c s1 C. unfold scan. change (peek (c :: s1) 0) with c. rewrite peek1, peek2. cbv zeta.
  destruct (((0 <=? c) && (c <=? 8)) || ((14 <=? c) && (c <=? 31)) || (c =? 127)) eqn:INV.
  { split; [cbn; lia|]. cbn [error kind malformed begins]. rewrite !orb_true_iff, !andb_true_iff, !Z.leb_le, Z.eqb_eq in INV. unfold control, blank, lf, cr. lia. }
  next c. { apply good_backslash. }
  destruct (is_whitespace c) eqn:WS. { apply good_blank. exact WS. }
  next c. { rewrite <- (peek1 10). apply good_lf. }
  next c. { rewrite <- (peek1 13). apply good_cr. }
  do 13 (next c; [go; fail|]).
  next c.
  { destruct ((hd 0 s1 =? 46) && (hd 0 (tl s1) =? 46)) eqn:D.
    - apply andb_true_iff in D. destruct D as [D1 D2]. apply hd_is in D1; [|lia]. destruct D1 as [s2 ->]. cbn [tl] in D2. apply hd_is in D2; [|lia]. destruct D2 as [s3 ->]. punct3.
    - destruct (is_number (hd 0 s1)) eqn:N; [apply good_dot; exact N|]. punct1. intros _. destruct s1 as [|x s1]; [exact I|]. cbn [hd stops] in *. intro Q. apply number_digit in Q. congruence. }
  do 11 (next c; [go; fail|]).
  next c.
  { destruct (hd 0 s1 =? 42) eqn:D1; [apply hd_is in D1; [|lia]; destruct D1 as [s2 ->]; apply good_block|]. destruct (hd 0 s1 =? 47) eqn:D2; [apply hd_is in D2; [|lia]; destruct D2 as [s2 ->]; apply good_line|].
    destruct (hd 0 s1 =? 61) eqn:D3; [apply hd_is in D3; [|lia]; destruct D3 as [s2 ->]; punct2|]. punct1. intros _. apply Z.eqb_neq in D1, D2. auto. }
  next c. { go. }
  next c. { apply (good_character line column []). unfold character_prefix. cbn. auto. }
  next c. { apply (good_string line column []). unfold string_prefix. cbn. auto. }
  destruct ((c =? 76) || (c =? 85)) eqn:LU.
  { apply orb_true_iff in LU. rewrite !Z.eqb_eq in LU.
    destruct (hd 0 s1 =? 34) eqn:D1; [apply hd_is in D1; [|lia]; destruct D1 as [s2 ->]; apply (good_string line column [c]); unfold string_prefix; cbn; destruct LU as [->| ->]; auto|].
    destruct (hd 0 s1 =? 39) eqn:D2; [apply hd_is in D2; [|lia]; destruct D2 as [s2 ->]; apply (good_character line column [c]); unfold character_prefix; cbn; destruct LU as [->| ->]; auto|].
    apply good_identifier; [destruct LU as [->| ->]; reflexivity|destruct LU as [->| ->]; reflexivity|].
    intros text rest T. destruct text as [|x text]; [right; reflexivity|]. left. injection T as <- T. split; intro P; unfold string_prefix, character_prefix in P; cbn in P; destruct LU as [->| ->]; intuition; try discriminate;
      match goal with H : [_] = _ :: text |- _ => injection H as <-; cbn [app] in T; subst s1; destruct rest as [|y rest]; [exact I|]; cbn [hd stops] in *; intros [Q|[]]; subst y; discriminate | H : _ = _ :: text |- _ => discriminate H end. }
  next c.
  { destruct (hd 0 s1 =? 34) eqn:D1; [apply hd_is in D1; [|lia]; destruct D1 as [s2 ->]; apply (good_string line column [117]); unfold string_prefix; cbn; auto|].
    destruct (hd 0 s1 =? 39) eqn:D2; [apply hd_is in D2; [|lia]; destruct D2 as [s2 ->]; apply (good_character line column [117]); unfold character_prefix; cbn; auto|].
    destruct ((hd 0 s1 =? 56) && (hd 0 (tl s1) =? 34)) eqn:D.
    - apply andb_true_iff in D. destruct D as [D3 D4]. apply hd_is in D3; [|lia]. destruct D3 as [s2 ->]. cbn [tl] in D4. apply hd_is in D4; [|lia]. destruct D4 as [s3 ->]. apply (good_string line column [117; 56]). unfold string_prefix. cbn. auto 8.
    - apply good_identifier; [reflexivity|reflexivity|]. intros text rest T. destruct text as [|x text]; [right; reflexivity|]. left. injection T as <- T. split; intro P; unfold string_prefix, character_prefix in P; cbn in P; intuition; try discriminate;
      match goal with H : _ = _ :: text |- _ => injection H as <- end; cbn [app] in T; subst s1; destruct rest as [|y rest]; try exact I; cbn [hd tl stops] in *; intros [Q|[]]; subst y; discriminate. }
  next c. { apply good_zero. }
  destruct ((49 <=? c) && (c <=? 57)) eqn:N. { rewrite andb_true_iff, !Z.leb_le in N. apply good_decimal. exact N. }
  destruct (byte_classes c C) as [[CI CN]|[CI|[CI|[CI|CI]]]].
  - apply good_identifier; [exact CI|exact CN|]. intros text rest T. destruct text as [|x text]; [right; reflexivity|]. left. injection T as <- T. apply orb_false_iff in LU. rewrite !Z.eqb_neq in LU.
    split; intro P; unfold string_prefix, character_prefix in P; cbn in P; exfalso; intuition; try discriminate; try congruence.
  - exfalso. unfold is_number in CI. rewrite andb_true_iff, !Z.leb_le in CI. rewrite andb_false_iff, !Z.leb_gt in N. lia.
  - congruence.
  - congruence.
  - exfalso. cbn [In] in CI. repeat (destruct CI as [CI|CI]; [congruence|]). destruct CI.
Qed.

(** ** The whole file *)
Inductive produced : Z -> Z -> list Z -> list tok -> bool -> Prop :=
  | produced_end l c : produced l c [] [] false
  | produced_token l c s r ts e : s <> [] -> good l c s r -> produced (line_after r) (column_after r) (skipn (size r) s) ts e ->
      produced l c s ({| tk_type := kind r; tk_line := l; tk_column := c; tk_size := size r; tk_text := firstn (size r) s |} :: ts) (error r || e).

Lemma tokens_produced : forall fuel l c s, Forall (fun x => 0 <= x < 256) s -> (length s < fuel)%nat -> exists ts e, tokens fuel l c s = Done (ts, e) /\ produced l c s ts e.
Proof.
  induction fuel as [|fuel IH]; intros l c s B F; [lia|]. destruct s as [|x s1]; [exists [], false; split; [reflexivity|constructor]|].
  assert (G : good l c (x :: s1) (scan l c (x :: s1))) by (apply scan_ok; inversion B; assumption).
  remember (scan l c (x :: s1)) as r eqn:R. destruct (IH (line_after r) (column_after r) (skipn (size r) (x :: s1))) as (ts & e & T & P).
  - rewrite <- (firstn_skipn (size r) (x :: s1)) in B. apply Forall_app in B. apply B.
  - rewrite skipn_length. destruct G as [G _]. cbn [length] in *. lia.
  - eexists. eexists. split; [|apply (produced_token l c (x :: s1) r ts e); [discriminate|exact G|exact P]]. cbn [tokens]. rewrite <- R, T. reflexivity.
Qed.

Definition texts (ts : list tok) : list Z := concat (map tk_text ts).
Lemma produced_texts : forall l c s ts e, produced l c s ts e -> texts ts = s.
Proof.
  intros l c s ts e P. unfold texts. induction P as [l c|l c s r ts e N G P IH]; [reflexivity|]. cbn [map concat tk_text]. rewrite IH. apply firstn_skipn.
Qed.
Lemma produced_nonempty : forall l c s ts e, produced l c s ts e -> Forall (fun t => tk_text t <> []) ts.
Proof.
  intros l c s ts e P. induction P as [l c|l c s r ts e N G P IH]; constructor; [|exact IH]. cbn [tk_text]. destruct G as [G _]. destruct s as [|x s]; [congruence|]. destruct (size r); [lia|discriminate].
Qed.
Lemma produced_sizes : forall l c s ts e a t b, produced l c s ts e -> ts = a ++ t :: b -> (tk_size t <= length (tk_text t ++ texts b) + 2)%nat.
Proof.
  intros l c s ts e a t b P. revert a. induction P as [l c|l c s r ts e N G P IH]; intros a E; [destruct a; discriminate|]. destruct a as [|x a].
  - injection E as <- <-. cbn [tk_size tk_text]. rewrite (produced_texts _ _ _ _ _ P), firstn_skipn. apply G.
  - injection E as _ E. exact (IH a E).
Qed.
Lemma good_lexeme : forall l c s r, good l c s r -> error r = false -> size r = length (firstn (size r) s) /\ lexeme (kind r) (firstn (size r) s) (skipn (size r) s)
  /\ exact_lines s r l (firstn (size r) s) /\ exact_columns s r c (firstn (size r) s).
Proof.
  intros l c s r [_ G] E. rewrite E in G. destruct G as (text & rest & -> & Z & X & L & C). rewrite Z, firstn_app, firstn_all, Nat.sub_diag, firstn_O, app_nil_r. rewrite skipn_app, skipn_all, Nat.sub_diag. cbn [app skipn]. auto.
Qed.
Lemma produced_lexemes : forall l c s ts e a t b, produced l c s ts e -> e = false -> ts = a ++ t :: b -> tk_size t = length (tk_text t) /\ lexeme (tk_type t) (tk_text t) (texts b).
Proof.
  intros l c s ts e a t b P. revert a. induction P as [l c|l c s r ts e N G P IH]; intros a F E; [destruct a; discriminate|]. apply orb_false_iff in F. destruct F as [F1 F2]. destruct a as [|x a].
  - injection E as <- <-. cbn [tk_size tk_text tk_type]. rewrite (produced_texts _ _ _ _ _ P). split; apply (good_lexeme l c s r G F1).
  - injection E as _ E. exact (IH a F2 E).
Qed.
Lemma produced_error : forall l c s ts e, produced l c s ts e -> e = true -> exists a t b, ts = a ++ t :: b /\ malformed (tk_type t) (tk_text t ++ texts b)
  /\ forall a1 x a2, a = a1 ++ x :: a2 -> lexeme (tk_type x) (tk_text x) (texts a2 ++ tk_text t ++ texts b).
Proof.
  intros l c s ts e P. induction P as [l c|l c s r ts e N G P IH]; intros E; [discriminate|]. destruct (error r) eqn:R.
  - exists []. eexists. exists ts. split; [reflexivity|]. cbn [tk_type tk_text]. rewrite (produced_texts _ _ _ _ _ P), firstn_skipn. destruct G as [_ G]. rewrite R in G. split; [exact G|]. intros [|? ?] x a2 Q; discriminate.
  - destruct (IH E) as (a & t & b & -> & M & A). eexists (_ :: a). exists t, b. split; [reflexivity|]. split; [exact M|]. intros [|y a1] x a2 Q.
    + injection Q as <- <-. cbn [tk_type tk_text]. destruct (good_lexeme l c s r G R) as (_ & X & _). pose proof (produced_texts _ _ _ _ _ P) as T. unfold texts in *. rewrite map_app, concat_app in T. cbn [map concat] in T. rewrite T. exact X.
    + injection Q as _ Q. exact (A a1 x a2 Q).
Qed.

Lemma normal_lines_rest : forall a b, normal_lines (a ++ b) -> normal_lines b.
Proof. intros a b N x y E. apply (N (a ++ x) y). rewrite E, <- app_assoc. reflexivity. Qed.
Lemma produced_lines : forall l c s ts e a t b, produced l c s ts e -> e = false -> ts = a ++ t :: b -> normal_lines s ->
  (forall x, In x a -> tk_type x = Character_literal -> ~ In lf (tk_text x)) -> tk_line t = l + newlines (texts a).
Proof.
  intros l c s ts e a t b P. revert a. induction P as [l c|l c s r ts e N G P IH]; intros a F E NL L; [destruct a; discriminate|]. apply orb_false_iff in F. destruct F as [F1 F2]. destruct a as [|x a].
  - injection E as <- <-. cbn [tk_line]. unfold texts. cbn. lia.
  - injection E as <- E. destruct (good_lexeme l c s r G F1) as (_ & _ & X & _). specialize (L) as L1. specialize (L1 _ (or_introl eq_refl)). cbn [tk_type tk_text] in L1. specialize (X NL L1).
    assert (NL2 : normal_lines (skipn (size r) s)) by (apply (normal_lines_rest (firstn (size r) s)); rewrite firstn_skipn; exact NL).
    rewrite (IH a F2 E NL2 (fun y Y => L y (or_intror Y))), X. unfold texts. cbn [map concat tk_text]. rewrite newlines_app. lia.
Qed.

Definition column_of (column : Z) (text : list Z) : Z := if in_dec Z.eq_dec lf text then 1 + Z.of_nat (since_newline text) else column + Z.of_nat (length text).
Lemma since_newline_none : forall t, ~ In lf t -> since_newline t = length t.
Proof. intros [|x t] N; [reflexivity|]. cbn [since_newline]. destruct (in_dec Z.eq_dec lf (x :: t)); [contradiction|reflexivity]. Qed.
Lemma since_newline_app : forall a b, In lf b -> since_newline (a ++ b) = since_newline b.
Proof.
  induction a as [|x a IH]; intros b H; [reflexivity|]. cbn [app since_newline]. destruct (in_dec Z.eq_dec lf (x :: a ++ b)) as [_|N]; [exact (IH b H)|]. exfalso. apply N. right. apply in_or_app. right. exact H.
Qed.
Lemma since_newline_tail : forall a b, In lf a -> ~ In lf b -> since_newline (a ++ b) = (since_newline a + length b)%nat.
Proof.
  induction a as [|x a IH]; intros b H N; [destruct H|]. cbn [app since_newline]. destruct (in_dec Z.eq_dec lf (x :: a ++ b)) as [_|M]; [|exfalso; apply M; destruct H as [H|H]; [left; exact H|right; apply in_or_app; left; exact H]].
  destruct (in_dec Z.eq_dec lf (x :: a)) as [_|M]; [|contradiction]. destruct (in_dec Z.eq_dec lf a) as [A|A]; [exact (IH b A N)|].
  rewrite since_newline_none by (intro Q; apply in_app_or in Q; tauto). rewrite since_newline_none by exact A. apply app_length.
Qed.
Lemma column_of_app : forall c a b, column_of (column_of c a) b = column_of c (a ++ b).
Proof.
  intros c a b. unfold column_of. destruct (in_dec Z.eq_dec lf (a ++ b)) as [H|H].
  - destruct (in_dec Z.eq_dec lf b) as [B|B]; [rewrite since_newline_app by exact B; reflexivity|]. destruct (in_dec Z.eq_dec lf a) as [A|A]; [|exfalso; apply in_app_or in H; tauto]. rewrite since_newline_tail by assumption. lia.
  - destruct (in_dec Z.eq_dec lf b) as [B|B]; [exfalso; apply H, in_or_app; tauto|]. destruct (in_dec Z.eq_dec lf a) as [A|A]; [exfalso; apply H, in_or_app; tauto|]. rewrite app_length. lia.
Qed.
Definition plain (x : tok) : Prop := (tk_type x = Character_literal \/ tk_type x = String_literal -> ~ In lf (tk_text x)) /\ (tk_type x = Comment -> starts (codes "/*") (tk_text x) -> In lf (tk_text x)) /\ ~ (exists a, tk_text x = a ++ [lf; cr]).
Lemma produced_columns : forall l c s ts e a t b, produced l c s ts e -> e = false -> ts = a ++ t :: b -> normal_lines s -> (forall x, In x a -> plain x) -> tk_column t = column_of c (texts a).
Proof.
  intros l c s ts e a t b P. revert a. induction P as [l c|l c s r ts e N G P IH]; intros a F E NL L; [destruct a; discriminate|]. apply orb_false_iff in F. destruct F as [F1 F2]. destruct a as [|x a].
  - injection E as <- <-. cbn [tk_column]. unfold texts, column_of. cbn. lia.
  - injection E as <- E. destruct (good_lexeme l c s r G F1) as (_ & _ & _ & X). pose proof (L _ (or_introl eq_refl)) as (L1 & L2 & L3). cbn [tk_type tk_text] in L1, L2, L3. specialize (X NL L1 L2 L3).
    assert (NL2 : normal_lines (skipn (size r) s)) by (apply (normal_lines_rest (firstn (size r) s)); rewrite firstn_skipn; exact NL).
    rewrite (IH a F2 E NL2 (fun y Y => L y (or_intror Y))), X. change (column_of (column_of c (firstn (size r) s)) (texts a) = column_of c (firstn (size r) s ++ texts a)). apply column_of_app.
Qed.
