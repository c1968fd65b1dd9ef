(** Proofs for C43. *)
From Verif Require Import Base ChunkModel ChunkSpec.

Lemma same_eq : forall a b, same a b = true <-> a = b.
Proof. intros [] []; cbn; split; congruence. Qed.
Lemma same_refl : forall a, same a a = true.
Proof. intros []; reflexivity. Qed.

Lemma open_after_app : forall a st b, open_after st (a ++ b) = match open_after st a with Some st' => open_after st' b | None => None end.
Proof.
  induction a as [|t a IH]; intros st b; [reflexivity|]. destruct t; cbn [app open_after]; try apply IH.
  destruct st as [|c st]; [reflexivity|]. destruct (same b0 c); [apply IH|reflexivity].
Qed.
Lemma open_after_under : forall x s st s', open_after s x = Some s' -> open_after (s ++ st) x = Some (s' ++ st).
Proof.
  induction x as [|t x IH]; intros s st s' E; [cbn in *; congruence|]. destruct t; cbn [open_after] in *; try (apply IH; exact E).
  - apply (IH (b :: s)). exact E.
  - destruct s as [|c s]; [discriminate|]. cbn [app]. destruct (same b c); [apply IH; exact E|discriminate].
Qed.

(** The tokens up to and including the one that closes [b]. *)
Definition group (b : bracket) (g : list token) : Prop :=
  open_after [b] g = Some [] /\ forall x y, g = x ++ y -> y <> [] -> exists s, open_after [b] x = Some s /\ s <> [].

Definition kinds (b : bracket) (s : list bracket) : nat := length (filter (same b) s).

Lemma skip_spec : forall ts b s st, open_after (s ++ b :: st) ts = Some [] ->
  exists g rest, skip b (S (kinds b s)) ts = Some rest /\ ts = g ++ rest /\ open_after (s ++ [b]) g = Some [] /\
    forall x y, g = x ++ y -> y <> [] -> exists s', open_after (s ++ [b]) x = Some s' /\ s' <> [].
Proof.
  induction ts as [|t ts IH]; intros b s st E; [cbn in E; destruct s; discriminate|].
  assert (SIMPLE : forall s', (forall ts' s0, open_after (s0 ++ [b]) (t :: ts') = open_after (s0 ++ [b]) (t :: ts')) -> 
            (forall ts', open_after (s ++ [b]) (t :: ts') = open_after (s' ++ [b]) ts') -> open_after (s' ++ b :: st) ts = Some [] ->
            skip b (S (kinds b s)) (t :: ts) = skip b (S (kinds b s')) ts ->
            exists g rest, skip b (S (kinds b s)) (t :: ts) = Some rest /\ t :: ts = g ++ rest /\ open_after (s ++ [b]) g = Some [] /\
              forall x y, g = x ++ y -> y <> [] -> exists s', open_after (s ++ [b]) x = Some s' /\ s' <> []).
  { intros s' _ H1 H2 H3. destruct (IH b s' st H2) as (g & rest & G1 & G2 & G3 & G4). exists (t :: g), rest. rewrite H3. split; [exact G1|]. split; [cbn; congruence|]. split; [rewrite H1; exact G3|].
    intros x y EX NY. destruct x as [|t' x]; [exists (s ++ [b]); split; [reflexivity|destruct s; discriminate]|]. injection EX as <- EX. rewrite H1. exact (G4 x y EX NY). }
  destruct t; try (apply (SIMPLE s); [reflexivity|reflexivity|exact E|reflexivity]).
  - apply (SIMPLE (b0 :: s)); [reflexivity|reflexivity|exact E|]. cbn [skip kinds filter]. unfold kinds. cbn [filter]. destruct (same b0 b) eqn:Q; [apply same_eq in Q; subst b0; rewrite same_refl; reflexivity|].
    destruct (same b b0) eqn:Q'; [apply same_eq in Q'; subst; rewrite same_refl in Q; discriminate|reflexivity].
  - destruct s as [|c s].
    + cbn [app open_after] in E. destruct (same b0 b) eqn:Q; [|discriminate]. exists [Closes b0], ts. cbn [skip kinds filter length]. rewrite Q. cbn [app open_after]. rewrite Q. repeat split; auto.
      intros x y EX NY. destruct x as [|t' x]; [exists [b]; split; [reflexivity|discriminate]|]. injection EX as <- EX. destruct x; [cbn in EX; congruence|discriminate].
    + cbn [app open_after] in E. destruct (same b0 c) eqn:Q; [|discriminate]. apply same_eq in Q. subst c.
      apply (SIMPLE s); [reflexivity| |exact E|].
      * intro ts'. cbn [app open_after]. rewrite same_refl. reflexivity.
      * cbn [skip]. unfold kinds. cbn [filter]. destruct (same b0 b) eqn:Q; [apply same_eq in Q; subst b0; rewrite same_refl; reflexivity|].
        destruct (same b b0) eqn:Q'; [apply same_eq in Q'; subst; rewrite same_refl in Q; discriminate|reflexivity].
Qed.

Lemma skipped_spec : forall b ts st, open_after (b :: st) ts = Some [] -> exists g rest, skipped b ts = Done rest /\ ts = g ++ rest /\ group b g.
Proof.
  intros b ts st E. destruct (skip_spec ts b [] st E) as (g & rest & G1 & G2 & G3 & G4). exists g, rest. unfold skipped. cbn [kinds filter length] in G1.
  change (S (kinds b [])) with 1%nat in G1. rewrite G1. repeat split; auto.
Qed.

Lemma init_app : forall a st i b st', open_after st a = Some st' -> in_initializer st i (a ++ b) = in_initializer st' (in_initializer st i a) b.
Proof.
  induction a as [|t a IH]; intros st i b st' E; [cbn in *; congruence|]. cbn [app in_initializer].
  change (t :: a) with ([t] ++ a) in E. rewrite open_after_app in E. destruct (open_after st [t]) as [s1|]; [|discriminate]. apply IH. exact E.
Qed.

Lemma group_run : forall b g st, group b g -> open_after (b :: st) g = Some st.
Proof. intros b g st (G & _). exact (open_after_under g [b] st [] G). Qed.

Lemma init_lifted : forall g s st i, s <> [] -> (forall x y, g = x ++ y -> y <> [] -> exists s', open_after s x = Some s' /\ s' <> []) -> in_initializer (s ++ st) i g = i.
Proof.
  induction g as [|t g IH]; intros s st i N H; [reflexivity|]. cbn [in_initializer]. destruct s as [|c s]; [contradiction|]. cbn [app].
  assert (I : match c :: s ++ st with [] => match t with Equals => true | Comma | Semicolon => false | _ => i end | _ :: _ => i end = i) by reflexivity.
  destruct g as [|u g]; [destruct (open_after (c :: s ++ st) [t]); reflexivity|].
  destruct (H [t] (u :: g) eq_refl) as (s1 & S1 & N1); [discriminate|].
  assert (U := open_after_under [t] (c :: s) st s1 S1). cbn [app] in U. rewrite U. apply (IH s1 st i N1).
  intros x y EX NY. destruct (H (t :: x) y) as (s2 & S2 & N2); [cbn; congruence|exact NY|]. exists s2. split; [|exact N2].
  change (t :: x) with ([t] ++ x) in S2. rewrite open_after_app, S1 in S2. exact S2.
Qed.
Lemma group_init : forall b g st i, group b g -> in_initializer (b :: st) i g = i.
Proof. intros b g st i (_ & G). apply (init_lifted g [b] st i); [discriminate|exact G]. Qed.

(** No semicolon outside of brackets among these tokens. *)
Definition no_semi (pre m : list token) : Prop := forall x y, m = x ++ Semicolon :: y -> open_after [] (pre ++ x) <> Some [].
Definition last_semi (pre m : list token) : Prop := forall x y, m = x ++ Semicolon :: y -> open_after [] (pre ++ x) = Some [] -> y = [].

Lemma split_app : forall (A : Type) (a b x y : list A) t, a ++ b = x ++ t :: y -> (exists r, a = x ++ t :: r /\ y = r ++ b) \/ exists l, x = a ++ l /\ b = l ++ t :: y.
Proof.
  induction a as [|u a IH]; intros b x y t E; [right; exists x; auto|]. destruct x as [|v x]; cbn in E.
  - injection E as <- <-. left. exists a. auto.
  - injection E as <- E. destruct (IH _ _ _ _ E) as [(r & -> & ->)|(l & -> & ->)]; [left; exists r; auto|right; exists l; auto].
Qed.
Lemma no_semi_app : forall pre a b, no_semi pre a -> no_semi (pre ++ a) b -> no_semi pre (a ++ b).
Proof. intros pre a b A B x y E. apply split_app in E as [(r & E & _)|(l & -> & E)]; [exact (A _ _ E)|]. rewrite app_assoc. exact (B _ _ E). Qed.
Lemma last_semi_app : forall pre a b, no_semi pre a -> last_semi (pre ++ a) b -> last_semi pre (a ++ b).
Proof. intros pre a b A B x y E. apply split_app in E as [(r & E & _)|(l & -> & E)]; [intro O; destruct (A _ _ E O)|]. rewrite app_assoc. exact (B _ _ E). Qed.
Lemma no_semi_last : forall pre a, no_semi pre a -> last_semi pre a.
Proof. intros pre a A x y E O. destruct (A _ _ E O). Qed.
Lemma no_semi_one : forall pre t, t <> Semicolon -> no_semi pre [t].
Proof. intros pre t N x y E. destruct x as [|u x]; [injection E as E _; congruence|]. destruct x; discriminate. Qed.
Lemma no_semi_nil : forall pre, no_semi pre [].
Proof. intros pre x y E. destruct x; discriminate. Qed.
Lemma no_semi_group : forall pre st b g, open_after [] pre = Some st -> group b g -> no_semi pre (Opens b :: g).
Proof.
  intros pre st b g P (_ & G) x y E O. destruct x as [|u x]; [discriminate|]. injection E as <- E. destruct (G x (Semicolon :: y) E) as (s & S1 & N); [discriminate|].
  rewrite open_after_app, P in O. cbn [open_after] in O. assert (U := open_after_under x [b] st s S1). cbn [app] in U. rewrite U in O. destruct s; [contradiction|discriminate].
Qed.

Section File.
Variable file : list token.

(** Where the splitter stands. *)
Definition ok (pre ts : list token) (st : list bracket) : Prop :=
  file = pre ++ ts /\ open_after [] pre = Some st /\ open_after st ts = Some [] /\ parens_only st.
Definition outside (pre : list token) : Prop := in_initializer [] false pre = false.
Definition fits (pre ts : list token) : Prop :=
  forall a, (pre = a ++ [Tag] -> match ts with (Identifier | Opens Curly) :: _ => False | _ => True end) /\ (pre = a ++ [Tag; Identifier] -> match ts with Opens Curly :: _ => False | _ => True end).

Lemma ok_one : forall pre t ts st, ok pre (t :: ts) st -> t <> Opens Index -> t <> Opens Curly -> exists st', ok (pre ++ [t]) ts st'.
Proof.
  intros pre t ts st (F & P & T & O) N1 N2.
  assert (G : forall st', open_after st [t] = Some st' -> parens_only st' -> ok (pre ++ [t]) ts st').
  { intros st' E1 O'. split; [rewrite <- app_assoc; exact F|]. split; [rewrite open_after_app, P; exact E1|]. split; [|exact O']. change (t :: ts) with ([t] ++ ts) in T. rewrite open_after_app, E1 in T. exact T. }
  destruct t; try (exists st; apply G; [reflexivity|exact O]).
  - destruct b; try contradiction. exists (Paren :: st). apply G; [reflexivity|constructor; [reflexivity|exact O]].
  - cbn [open_after] in T. destruct st as [|c st]; [discriminate|]. destruct (same b c) eqn:Q; [|discriminate]. exists st. apply G; [cbn; rewrite Q; reflexivity|]. inversion O; assumption.
Qed.
Lemma ok_group : forall pre b g ts st, ok pre (Opens b :: g ++ ts) st -> group b g -> ok (pre ++ Opens b :: g) ts st.
Proof.
  intros pre b g ts st (F & P & T & O) G. split; [rewrite <- app_assoc; exact F|]. split; [rewrite open_after_app, P; exact (group_run b g st G)|]. split; [|exact O].
  cbn [open_after] in T. rewrite open_after_app, (group_run b g st G) in T. exact T.
Qed.
Lemma outside_one : forall pre t st, open_after [] pre = Some st -> outside pre -> t <> Equals -> outside (pre ++ [t]).
Proof. intros pre t st P O N. unfold outside. rewrite (init_app _ _ _ _ _ P), O. cbn [in_initializer]. destruct st; [destruct t; try reflexivity; congruence|reflexivity]. Qed.
Lemma init_group : forall pre b g st, open_after [] pre = Some st -> group b g -> in_initializer [] false (pre ++ Opens b :: g) = in_initializer [] false pre.
Proof. intros pre b g st P G. rewrite (init_app _ _ _ _ _ P). cbn [in_initializer open_after]. rewrite (group_init b g st _ G). destruct st; reflexivity. Qed.

(** The last token of a group closes something. *)
Lemma group_last : forall b g, group b g -> exists g' c, g = g' ++ [Closes c].
Proof.
  intros b g (G & H). destruct g as [|t g _] using rev_ind; [discriminate|]. destruct (H g [t] eq_refl) as (s & S1 & N); [discriminate|].
  rewrite open_after_app, S1 in G. destruct s as [|c s]; [contradiction|]. exists g. destruct t; cbn in G; try discriminate. exists b0. reflexivity.
Qed.
Lemma fits_last : forall pre t ts, t <> Tag -> t <> Identifier -> fits (pre ++ [t]) ts.
Proof.
  intros pre t ts N1 N2 a. split; intro E.
  - apply app_inj_tail in E as (_ & E). contradiction.
  - change [Tag; Identifier] with ([Tag] ++ [Identifier]) in E. rewrite app_assoc in E. apply app_inj_tail in E as (_ & E). contradiction.
Qed.
Lemma fits_group : forall pre b g ts, group b g -> fits (pre ++ Opens b :: g) ts.
Proof. intros pre b g ts G. destruct (group_last b g G) as (g' & c & ->). replace (pre ++ Opens b :: g' ++ [Closes c]) with ((pre ++ Opens b :: g') ++ [Closes c]) by (rewrite <- app_assoc; reflexivity). apply fits_last; discriminate. Qed.
Lemma fits_identifier : forall pre ts ts', fits pre (Identifier :: ts') -> fits (pre ++ [Identifier]) ts.
Proof.
  intros pre ts ts' F a. split; intro E.
  - apply app_inj_tail in E as (_ & E). discriminate.
  - change [Tag; Identifier] with ([Tag] ++ [Identifier]) in E. rewrite app_assoc in E. apply app_inj_tail in E as (E & _). destruct (proj1 (F a) E).
Qed.

(** What a piece that is passed over leaves behind. *)
Definition passed (pre m ts : list token) (st : list bracket) : Prop := ok (pre ++ m) ts st /\ no_semi pre m /\ (outside pre -> outside (pre ++ m)).

Lemma skip_parens_spec : forall pre ts st, ok pre ts st -> exists m rest, skip_parens ts = Done rest /\ ts = m ++ rest /\ (passed pre m rest st) /\ (m = [] \/ forall r, fits (pre ++ m) r).
Proof.
  intros pre ts st O. assert (Z : passed pre [] ts st) by (unfold passed; rewrite app_nil_r; repeat split; try apply O; [apply no_semi_nil|auto]).
  assert (Y : skip_parens ts = Done ts -> exists m rest, skip_parens ts = Done rest /\ ts = m ++ rest /\ (passed pre m rest st) /\ (m = [] \/ forall r, fits (pre ++ m) r)) by (intro Y; exists [], ts; auto).
  destruct ts as [|t ts]; [apply Y; reflexivity|].
  destruct t; try (apply Y; reflexivity). destruct b; try (apply Y; reflexivity). clear Z Y.
  assert (O' := O). destruct O' as (F & P & T & PO). destruct (skipped_spec Paren ts st T) as (g & rest & S1 & -> & G). exists (Opens Paren :: g), rest. cbn [skip_parens]. split; [exact S1|]. split; [reflexivity|].
  split; [split; [apply ok_group; assumption|split; [exact (no_semi_group _ _ _ _ P G)|unfold outside; rewrite (init_group _ _ _ _ P G); auto]]|right; intro r; apply fits_group; exact G].
Qed.
Lemma passed_one : forall pre t ts st, ok pre (t :: ts) st -> t <> Opens Index -> t <> Opens Curly -> t <> Semicolon -> t <> Equals -> exists st', passed pre [t] ts st'.
Proof. intros pre t ts st O N1 N2 N3 N4. destruct (ok_one _ _ _ _ O N1 N2) as (st' & O'). exists st'. split; [exact O'|]. split; [apply no_semi_one; exact N3|]. intro OU. exact (outside_one _ _ _ (proj1 (proj2 O)) OU N4). Qed.
Lemma passed_app : forall pre a b ts st1 st2, passed pre a (b ++ ts) st1 -> passed (pre ++ a) b ts st2 -> passed pre (a ++ b) ts st2.
Proof.
  intros pre a b ts st1 st2 (A1 & A2 & A3) (B1 & B2 & B3). unfold passed. rewrite app_assoc. split; [exact B1|]. split; [apply no_semi_app; assumption|auto].
Qed.

Lemma declspecs_spec : forall fuel pre ts st, (length ts < fuel)%nat -> ok pre ts st -> exists m rest st', declspecs fuel ts = Done rest /\ ts = m ++ rest /\ passed pre m rest st' /\ (m = [] \/ forall r, fits (pre ++ m) r).
Proof.
  induction fuel as [|fuel IH]; intros pre ts st L O; [lia|].
  assert (Z : passed pre [] ts st) by (unfold passed; rewrite app_nil_r; repeat split; try apply O; [apply no_semi_nil|auto]).
  assert (Y : declspecs (S fuel) ts = Done ts -> exists m rest st', declspecs (S fuel) ts = Done rest /\ ts = m ++ rest /\ passed pre m rest st' /\ (m = [] \/ forall r, fits (pre ++ m) r)) by (intro Y; exists [], ts, st; auto).
  destruct ts as [|t ts]; [apply Y; reflexivity|]. destruct t; try (apply Y; reflexivity). clear Z Y. cbn [declspecs].
  destruct (passed_one _ _ _ _ O) as (s1 & P1); try discriminate. destruct (skip_parens_spec _ _ _ (proj1 P1)) as (m & rest & S1 & -> & P2 & F2). rewrite S1. cbn [obind].
  destruct (IH (pre ++ Declspec :: m) rest s1) as (m' & rest' & s3 & S3 & -> & P3 & F3).
  - cbn [length] in L. rewrite app_length in L. lia.
  - replace (pre ++ Declspec :: m) with ((pre ++ [Declspec]) ++ m) by (rewrite <- app_assoc; reflexivity). exact (proj1 P2).
  - assert (P12 : passed pre (Declspec :: m) (m' ++ rest') s1) by exact (passed_app pre [Declspec] m (m' ++ rest') _ _ P1 P2).
    exists (Declspec :: m ++ m'), rest', s3. split; [exact S3|]. split; [cbn; rewrite app_assoc; reflexivity|]. split; [exact (passed_app pre (Declspec :: m) m' rest' _ _ P12 P3)|]. right.
    intro r. replace (pre ++ Declspec :: m ++ m') with ((pre ++ Declspec :: m) ++ m') by (rewrite <- app_assoc; reflexivity). destruct F3 as [->|F3]; [|apply F3]. rewrite app_nil_r.
    destruct F2 as [->|F2]; [apply fits_last; discriminate|]. replace (pre ++ Declspec :: m) with ((pre ++ [Declspec]) ++ m) by (rewrite <- app_assoc; reflexivity). apply F2.
Qed.

Lemma after_tag_spec : forall pre ts st, ok (pre ++ [Tag]) ts st -> exists m rest st', after_tag ts = Done rest /\ ts = m ++ rest /\ passed (pre ++ [Tag]) m rest st' /\ fits ((pre ++ [Tag]) ++ m) rest.
Proof.
  intros pre ts st O. unfold after_tag. destruct (declspecs_spec (S (length ts)) (pre ++ [Tag]) ts st) as (m & r1 & s1 & D & -> & P1 & F1); [lia|exact O|]. rewrite D. cbn [obind].
  set (q := pre ++ [Tag]) in *.
  assert (X : exists m2 r2 s2, match r1 with Identifier :: r => r | _ => r1 end = r2 /\ r1 = m2 ++ r2 /\ passed q (m ++ m2) r2 s2 /\ (match r2 with Opens Curly :: _ => True | _ => fits (q ++ m ++ m2) r2 end)).
  { assert (FN : match r1 with Identifier :: _ | Opens Curly :: _ => True | _ => fits (q ++ m) r1 end).
    { destruct F1 as [->|F1]; [|destruct r1 as [|[]]; try exact I; try apply F1; destruct b; try exact I; apply F1]. rewrite app_nil_r.
      assert (G : match r1 with Identifier :: _ | Opens Curly :: _ => False | _ => True end -> fits q r1).
      { intros H a. split; intro E; [exact H|]. unfold q in E. change [Tag; Identifier] with ([Tag] ++ [Identifier]) in E. rewrite app_assoc in E. apply app_inj_tail in E as (_ & E). discriminate. }
      destruct r1 as [|[]]; try exact I; try (apply G; exact I). destruct b; try exact I; apply G; exact I. }
    assert (Y : match r1 with Identifier :: r => r | _ => r1 end = r1 -> (match r1 with Opens Curly :: _ => True | _ => fits (q ++ m) r1 end) ->
      exists m2 r2 s2, match r1 with Identifier :: r => r | _ => r1 end = r2 /\ r1 = m2 ++ r2 /\ passed q (m ++ m2) r2 s2 /\ (match r2 with Opens Curly :: _ => True | _ => fits (q ++ m ++ m2) r2 end)).
    { intros Y1 Y2. exists [], r1, s1. replace (m ++ []) with m by (symmetry; apply app_nil_r). auto. }
    destruct r1 as [|t r1]; [apply Y; [reflexivity|exact FN]|].
    destruct t; try (apply Y; [reflexivity|exact FN]).
    - clear Y. destruct (passed_one _ _ _ _ (proj1 P1)) as (s2 & P2); try discriminate. exists [Identifier], r1, s2. split; [reflexivity|]. split; [reflexivity|]. split; [exact (passed_app _ _ [Identifier] _ _ _ P1 P2)|].
      assert (G : match r1 with Opens Curly :: _ => False | _ => True end -> fits (q ++ m ++ [Identifier]) r1).
      { intros H a. rewrite app_assoc. split; intro E; [apply app_inj_tail in E as (_ & E); discriminate|exact H]. }
      destruct r1 as [|[]]; try exact I; try (apply G; exact I). destruct b; try exact I; apply G; exact I. }
  clear F1. destruct X as (m2 & r2 & s2 & -> & -> & P2 & F2).
  assert (E : m ++ m2 ++ r2 = (m ++ m2) ++ r2) by (rewrite app_assoc; reflexivity). clear D.
  assert (Y : match r2 with Opens Curly :: ts3 => skipped Curly ts3 | _ => Done r2 end = Done r2 -> fits (q ++ m ++ m2) r2 ->
    exists m3 rest st', match r2 with Opens Curly :: ts3 => skipped Curly ts3 | _ => Done r2 end = Done rest /\ m ++ m2 ++ r2 = m3 ++ rest /\ passed q m3 rest st' /\ fits (q ++ m3) rest).
  { intros Y1 Y2. exists (m ++ m2), r2, s2. auto. }
  destruct r2 as [|t r2]; [apply Y; [reflexivity|exact F2]|]. destruct t; try (apply Y; [reflexivity|exact F2]). destruct b; try (apply Y; [reflexivity|exact F2]). clear Y.
  assert (O2 := proj1 P2). assert (O3 := O2). destruct O3 as (_ & PP & T & _). destruct (skipped_spec Curly r2 s2 T) as (g & rest & S1 & -> & G).
  exists ((m ++ m2) ++ Opens Curly :: g), rest, s2. split; [exact S1|]. split; [rewrite <- !app_assoc; reflexivity|].
  split; [|replace (q ++ (m ++ m2) ++ Opens Curly :: g) with ((q ++ m ++ m2) ++ Opens Curly :: g) by (rewrite <- !app_assoc; reflexivity); apply fits_group; exact G].
  apply (passed_app q (m ++ m2) (Opens Curly :: g) rest s2 s2); [exact P2|]. split; [apply ok_group; assumption|]. split; [exact (no_semi_group _ _ _ _ PP G)|]. unfold outside. rewrite (init_group _ _ _ _ PP G). auto.
Qed.

(** An initializer, after its [=]. *)
Lemma initializer_spec : forall fuel pre ts st, (length ts < fuel)%nat -> ok pre ts st -> (calm file -> in_initializer [] false pre = true -> st = []) ->
  exists m rest st' semi, initializer fuel ts = Done (semi, rest) /\ ts = m ++ rest /\ ok (pre ++ m) rest st' /\ (calm file -> outside (pre ++ m) \/ rest = []) /\
    (if semi then last_semi pre m /\ exists m', m = m' ++ [Semicolon] else no_semi pre m /\ (m = [] /\ ts = [] \/ rest = [] \/ exists m', m = m' ++ [Comma])).
Proof.
  induction fuel as [|fuel IH]; intros pre ts st L O I; [lia|]. assert (O0 := O). destruct O0 as (F & P & T & PO).
  destruct ts as [|t ts].
  { exists [], [], st, false. replace (pre ++ []) with pre by (symmetry; apply app_nil_r). split; [reflexivity|]. split; [reflexivity|]. split; [exact O|]. split; [auto|]. split; [apply no_semi_nil|auto]. }
  assert (LP : forall m ts' st', t :: ts = m ++ ts' -> ok (pre ++ m) ts' st' -> (calm file -> in_initializer [] false (pre ++ m) = true -> st' = []) -> no_semi pre m -> m <> [] -> initializer (S fuel) (t :: ts) = initializer fuel ts' ->
     exists m rest st' semi, initializer (S fuel) (t :: ts) = Done (semi, rest) /\ t :: ts = m ++ rest /\ ok (pre ++ m) rest st' /\ (calm file -> outside (pre ++ m) \/ rest = []) /\
     (if semi then last_semi pre m /\ exists m', m = m' ++ [Semicolon] else no_semi pre m /\ (m = [] /\ t :: ts = [] \/ rest = [] \/ exists m', m = m' ++ [Comma]))).
  { intros m ts' st' E O1 I1 N1 NM Q. destruct (IH (pre ++ m) ts' st') as (m2 & rest & s2 & semi & R1 & R2 & R3 & R4 & R5); [|exact O1|exact I1|].
    - assert (length (t :: ts) = length m + length ts')%nat by (rewrite E, app_length; reflexivity). destruct m; [contradiction|cbn [length] in *; lia].
    - exists (m ++ m2), rest, s2, semi. rewrite Q. rewrite app_assoc. split; [exact R1|]. split; [rewrite E, R2, app_assoc; reflexivity|]. split; [exact R3|]. split; [exact R4|].
      destruct semi; [destruct R5 as (R5 & m' & ->); split; [apply last_semi_app; assumption|exists (m ++ m'); rewrite app_assoc; reflexivity]|].
      destruct R5 as (R5 & R6). split; [apply no_semi_app; assumption|]. right. destruct R6 as [(-> & ->)|[->|(m' & ->)]]; [left; destruct rest; [reflexivity|discriminate]|left; reflexivity|right; exists (m ++ m'); rewrite app_assoc; reflexivity]. }
  assert (ONE : t <> Opens Index -> t <> Opens Curly -> t <> Semicolon -> t <> Comma -> exists st', ok (pre ++ [t]) ts st' /\ (calm file -> in_initializer [] false (pre ++ [t]) = true -> t <> Opens Paren -> st' = []) /\ no_semi pre [t]).
  { intros N1 N2 N3 N4. destruct (ok_one _ _ _ _ O N1 N2) as (st' & O1). exists st'. split; [exact O1|]. split; [|apply no_semi_one; exact N3]. rewrite (init_app _ _ _ _ _ P). cbn [in_initializer].
    destruct O1 as (_ & O1 & _). rewrite open_after_app, P in O1. intros C H NP. destruct st as [|c st].
    - destruct t; cbn [open_after] in O1; try congruence; try discriminate. destruct b; congruence.
    - specialize (I C H). discriminate. }
  assert (PLAIN : t <> Opens Index -> t <> Opens Curly -> t <> Semicolon -> t <> Comma -> t <> Opens Paren -> initializer (S fuel) (t :: ts) = initializer fuel ts ->
     exists m rest st' semi, initializer (S fuel) (t :: ts) = Done (semi, rest) /\ t :: ts = m ++ rest /\ ok (pre ++ m) rest st' /\ (calm file -> outside (pre ++ m) \/ rest = []) /\
     (if semi then last_semi pre m /\ exists m', m = m' ++ [Semicolon] else no_semi pre m /\ (m = [] /\ t :: ts = [] \/ rest = [] \/ exists m', m = m' ++ [Comma]))).
  { intros N1 N2 N3 N4 N5 Q. destruct (ONE N1 N2 N3 N4) as (st' & O1 & I1 & M1). apply (LP [t] ts st'); auto. discriminate. }
  destruct t; try (apply PLAIN; [discriminate..|reflexivity]).
  - destruct (skipped_spec b ts st) as (g & rest & S1 & -> & G); [cbn [open_after] in T; exact T|].
    apply (LP (Opens b :: g) rest st); [reflexivity|apply ok_group; assumption|rewrite (init_group _ _ _ _ P G); exact I|exact (no_semi_group _ _ _ _ P G)|discriminate|]. cbn [initializer]. rewrite S1. reflexivity.
  - destruct (ok_one _ _ _ _ O) as (st' & O1); try discriminate. exists [Semicolon], ts, st', true. split; [reflexivity|]. split; [reflexivity|]. split; [exact O1|].
    split; [|split; [intros x y E _; destruct x as [|u x]; [injection E as <-; reflexivity|destruct x; discriminate]|exists []; reflexivity]].
    intros (C & _). left. unfold outside. rewrite (init_app _ _ _ _ _ P). assert (st = []) as -> by (apply (C pre ts); assumption). reflexivity.
  - destruct (ok_one _ _ _ _ O) as (st' & O1); try discriminate. exists [Comma], ts, st', false. split; [reflexivity|]. split; [reflexivity|]. split; [exact O1|].
    split; [|split; [apply no_semi_one; discriminate|right; right; exists []; reflexivity]].
    intros C. left. unfold outside. rewrite (init_app _ _ _ _ _ P). destruct st; [reflexivity|]. cbn [in_initializer]. destruct (in_initializer [] false pre) eqn:Q; [specialize (I C eq_refl); discriminate|reflexivity].
Qed.

Lemma entry_spec : forall fuel gt gi pre ts st, (length ts < fuel)%nat -> ok pre ts st -> (calm file -> outside pre /\ fits pre ts \/ ts = []) ->
  (entry fuel gt gi ts = Reported /\ In Func_name ts) \/
  exists m rest st', entry fuel gt gi ts = Done rest /\ ts = m ++ rest /\ ok (pre ++ m) rest st' /\ last_semi pre m /\ (calm file -> st' = [] /\ (outside (pre ++ m) \/ rest = [])) /\
    (ts <> [] -> m <> []) /\ (rest = [] \/ exists m', m = m' ++ [Semicolon] \/ m = m' ++ [Closes Curly]).
Proof.
  induction fuel as [|fuel IH]; intros gt gi pre ts st L O K; [lia|]. assert (O0 := O). destruct O0 as (F & P & T & PO).
  destruct ts as [|t ts].
  { right. exists [], [], st. replace (pre ++ []) with pre by (symmetry; apply app_nil_r). cbn [open_after] in T. injection T as ->. split; [reflexivity|]. split; [reflexivity|]. split; [exact O|]. split; [apply no_semi_last, no_semi_nil|]. split; [auto|]. split; [contradiction|auto]. }
  assert (K' : calm file -> outside pre /\ fits pre (t :: ts)) by (intro C; destruct (K C) as [K1|K1]; [exact K1|discriminate]). clear K.
  assert (LP : forall gt' gi' m ts' st', t :: ts = m ++ ts' -> ok (pre ++ m) ts' st' -> no_semi pre m -> m <> [] -> (calm file -> outside (pre ++ m) /\ fits (pre ++ m) ts' \/ ts' = []) ->
     entry (S fuel) gt gi (t :: ts) = entry fuel gt' gi' ts' ->
     (entry (S fuel) gt gi (t :: ts) = Reported /\ In Func_name (t :: ts)) \/
     exists m rest st', entry (S fuel) gt gi (t :: ts) = Done rest /\ t :: ts = m ++ rest /\ ok (pre ++ m) rest st' /\ last_semi pre m /\ (calm file -> st' = [] /\ (outside (pre ++ m) \/ rest = [])) /\
     (t :: ts <> [] -> m <> []) /\ (rest = [] \/ exists m', m = m' ++ [Semicolon] \/ m = m' ++ [Closes Curly])).
  { intros gt' gi' m ts' st' E O1 N1 NM K1 Q. rewrite Q. destruct (IH gt' gi' (pre ++ m) ts' st') as [(R1 & R2)|(m2 & rest & s2 & R1 & R2 & R3 & R4 & R5 & _ & R7)]; [|exact O1|exact K1| |].
    - assert (length (t :: ts) = length m + length ts')%nat by (rewrite E, app_length; reflexivity). destruct m; [contradiction|cbn [length] in *; lia].
    - left. split; [exact R1|]. rewrite E. apply in_or_app. right. exact R2.
    - right. exists (m ++ m2), rest, s2. rewrite app_assoc. split; [exact R1|]. split; [rewrite E, R2, app_assoc; reflexivity|]. split; [exact R3|]. split; [apply last_semi_app; assumption|]. split; [exact R5|].
      split; [intros _; destruct m; [contradiction|discriminate]|]. destruct R7 as [R7|(m' & [->| ->])]; [left; exact R7|right; exists (m ++ m'); left; apply app_assoc|right; exists (m ++ m'); right; apply app_assoc]. }
  assert (ONE : forall gt' gi', t <> Opens Index -> t <> Opens Curly -> t <> Semicolon -> t <> Equals -> t <> Tag -> entry (S fuel) gt gi (t :: ts) = entry fuel gt' gi' ts ->
     (entry (S fuel) gt gi (t :: ts) = Reported /\ In Func_name (t :: ts)) \/
     exists m rest st', entry (S fuel) gt gi (t :: ts) = Done rest /\ t :: ts = m ++ rest /\ ok (pre ++ m) rest st' /\ last_semi pre m /\ (calm file -> st' = [] /\ (outside (pre ++ m) \/ rest = [])) /\
     (t :: ts <> [] -> m <> []) /\ (rest = [] \/ exists m', m = m' ++ [Semicolon] \/ m = m' ++ [Closes Curly])).
  { intros gt' gi' N1 N2 N3 N4 N5 Q. destruct (passed_one _ _ _ _ O N1 N2 N3 N4) as (st' & O1 & O2 & O3). apply (LP gt' gi' [t] ts st'); [reflexivity|exact O1|exact O2|discriminate| |exact Q].
    intro C. left. destruct (K' C) as (K1 & K2). split; [auto|]. destruct t; try (apply fits_last; discriminate); try contradiction. exact (fits_identifier _ _ _ K2). }
  assert (SKIP : t <> Opens Index -> t <> Opens Curly -> t <> Semicolon -> t <> Equals -> t <> Tag -> t <> Identifier -> entry (S fuel) gt gi (t :: ts) = obind (skip_parens ts) (entry fuel gt gi) ->
     (entry (S fuel) gt gi (t :: ts) = Reported /\ In Func_name (t :: ts)) \/
     exists m rest st', entry (S fuel) gt gi (t :: ts) = Done rest /\ t :: ts = m ++ rest /\ ok (pre ++ m) rest st' /\ last_semi pre m /\ (calm file -> st' = [] /\ (outside (pre ++ m) \/ rest = [])) /\
     (t :: ts <> [] -> m <> []) /\ (rest = [] \/ exists m', m = m' ++ [Semicolon] \/ m = m' ++ [Closes Curly])).
  { intros N1 N2 N3 N4 N5 N6 Q. destruct (passed_one _ _ _ _ O N1 N2 N3 N4) as (s1 & P1). destruct (skip_parens_spec _ _ _ (proj1 P1)) as (m & rest & S1 & -> & P2 & F2). rewrite S1 in Q. cbn [obind] in Q.
    destruct (passed_app _ _ _ _ _ _ P1 P2) as (Q1 & Q2 & Q3). apply (LP gt gi ([t] ++ m) rest s1); [reflexivity|exact Q1|exact Q2|discriminate| |exact Q].
    intro C. left. destruct (K' C) as (K1 & K2). split; [auto|]. rewrite app_assoc. destruct F2 as [->|F2]; [rewrite app_nil_r; apply fits_last; assumption|apply F2]. }
  assert (GRP : forall b gt' gi', t = Opens b -> (forall rest, skipped b ts = Done rest -> entry (S fuel) gt gi (t :: ts) = entry fuel gt' gi' rest) ->
     (entry (S fuel) gt gi (t :: ts) = Reported /\ In Func_name (t :: ts)) \/
     exists m rest st', entry (S fuel) gt gi (t :: ts) = Done rest /\ t :: ts = m ++ rest /\ ok (pre ++ m) rest st' /\ last_semi pre m /\ (calm file -> st' = [] /\ (outside (pre ++ m) \/ rest = [])) /\
     (t :: ts <> [] -> m <> []) /\ (rest = [] \/ exists m', m = m' ++ [Semicolon] \/ m = m' ++ [Closes Curly])).
  { intros b gt' gi' -> Q. cbn [open_after] in T. destruct (skipped_spec b ts st T) as (g & rest & S1 & -> & G). apply (LP gt' gi' (Opens b :: g) rest st); [reflexivity|apply ok_group; assumption|exact (no_semi_group _ _ _ _ P G)|discriminate| |exact (Q rest S1)].
    intro C. left. destruct (K' C) as (K1 & _). split; [unfold outside; rewrite (init_group _ _ _ _ P G); exact K1|apply fits_group; exact G]. }
  destruct t.
  - destruct b.
    + cbn [entry]. destruct gi eqn:EG; [apply (GRP Paren gt gi); [reflexivity|]; intros rest S1; cbn [entry]; rewrite EG, S1; reflexivity|]. subst gi. apply (ONE gt false); try discriminate. reflexivity.
    + apply (GRP Index gt gi); [reflexivity|]. intros rest S1. cbn [entry]. rewrite S1. reflexivity.
    + cbn [entry]. destruct (mentions_name 1 ts && negb gi) eqn:MN.
      { left. split; [reflexivity|]. right. apply andb_prop in MN as (MN & _). clear - MN. revert MN. generalize 1%nat. induction ts as [|t ts IH]; intros n MN; [discriminate|]. destruct t; cbn [mentions_name] in MN; try (right; exact (IH _ MN)); try (left; reflexivity).
        - destruct b; right; exact (IH _ MN).
        - destruct b; try (right; exact (IH _ MN)). destruct n as [|[|n]]; try discriminate. right. exact (IH _ MN). }
      right. cbn [open_after] in T. destruct (skipped_spec Curly ts st T) as (g & rest & S1 & -> & G). exists (Opens Curly :: g), rest, st. rewrite S1. split; [reflexivity|]. split; [reflexivity|]. split; [apply ok_group; assumption|].
      split; [apply no_semi_last; exact (no_semi_group _ _ _ _ P G)|]. split; [|split; [discriminate|]].
      * intro C. destruct (K' C) as (K1 & K2). split; [|left; unfold outside; rewrite (init_group _ _ _ _ P G); exact K1]. destruct (proj2 C pre (g ++ rest) st F P PO) as [C1|[C1|(a & [->| ->])]]; [exact C1|unfold outside in K1; congruence| |]; exfalso.
        -- exact (proj1 (K2 a) eq_refl).
        -- exact (proj2 (K2 a) eq_refl).
      * right. destruct (group_last _ _ G) as (g' & c & E). exists (Opens Curly :: g').
        assert (c = Curly) as ->; [|right; rewrite E; reflexivity]. destruct G as (G1 & G2). destruct (G2 g' [Closes c] E) as (s & S2 & NS); [discriminate|]. rewrite E, open_after_app, S2 in G1.
        cbn [open_after] in G1. destruct s as [|d s]; [contradiction|]. destruct (same c d) eqn:SC; [|discriminate]. injection G1 as ->. apply same_eq in SC. subst d.
        assert (B : forall x s0 s1 a, open_after (s0 ++ [Curly]) x = Some (s1 ++ [a]) -> (forall y z, x = y ++ z -> z <> [] -> exists s', open_after (s0 ++ [Curly]) y = Some s' /\ s' <> []) -> a = Curly).
        { clear. induction x as [|t x IH]; intros s0 s1 a E H; [cbn in E; injection E as E; apply app_inj_tail in E as (_ & E); congruence|].
          assert (H' : forall s', (forall y, open_after (s0 ++ [Curly]) (t :: y) = open_after (s' ++ [Curly]) y) -> a = Curly).
          { intros s' Q. apply (IH s' s1 a); [rewrite <- Q; exact E|]. intros y z EY NZ. destruct (H (t :: y) z) as (s2 & H1 & H2); [cbn; congruence|exact NZ|]. exists s2. rewrite <- Q. auto. }
          destruct t; try (apply (H' s0); reflexivity); [apply (H' (b :: s0)); reflexivity|]. destruct s0 as [|d s0].
          - cbn [app open_after] in E. destruct (same b Curly) eqn:Q; [|discriminate]. destruct x as [|u x]; [cbn in E; destruct s1; discriminate|].
            destruct (H [Closes b] (u :: x) eq_refl) as (s' & H1 & H2); [discriminate|]. cbn in H1. rewrite Q in H1. congruence.
          - destruct (same b d) eqn:Q; [|cbn [app open_after] in E; rewrite Q in E; discriminate]. apply (H' s0). intro y. cbn [app open_after]. rewrite Q. reflexivity. }
        apply (B g' [] [] c S2). intros y z EY NZ. apply (G2 y (z ++ [Closes c])); [rewrite E, EY, app_assoc; reflexivity|destruct z; discriminate].
  - apply (ONE gt gi); try discriminate. reflexivity.
  - right. destruct (ok_one _ _ _ _ O) as (st' & O1); try discriminate. exists [Semicolon], ts, st'. split; [reflexivity|]. split; [reflexivity|]. split; [exact O1|].
    split; [intros x y E _; destruct x as [|u x]; [injection E as <-; reflexivity|destruct x; discriminate]|]. split; [|split; [discriminate|right; exists []; left; reflexivity]].
    intro C. destruct (K' C) as (K1 & _). assert (st = []) as -> by (apply (proj1 C pre ts); assumption). split; [|left; apply (outside_one _ _ _ P K1); discriminate].
    destruct O1 as (_ & O1 & _). rewrite open_after_app, P in O1. cbn in O1. congruence.
  - apply (ONE gt false); try discriminate. reflexivity.
  - destruct (ok_one _ _ _ _ O) as (st1 & O1); try discriminate.
    assert (st1 = st) as -> by (destruct O1 as (_ & O1 & _); rewrite open_after_app, P in O1; cbn in O1; congruence).
    destruct (initializer_spec (S (length ts)) (pre ++ [Equals]) ts st) as (m & rest & s2 & semi & R1 & R2 & R3 & R4 & R5); [lia|exact O1| |].
    { intros C H. destruct (K' C) as (K1 & _). rewrite (init_app _ _ _ _ _ P) in H. destruct st; [reflexivity|]. cbn [in_initializer] in H. unfold outside in K1. congruence. }
    rewrite <- app_assoc in R3, R4. cbn [app] in R3, R4. assert (NS : no_semi pre [Equals]) by (apply no_semi_one; discriminate).
    destruct semi.
    + destruct R5 as (R5 & m' & ->). right. exists ([Equals] ++ m' ++ [Semicolon]), rest, s2. cbn [entry]. rewrite R1. split; [reflexivity|]. split; [cbn [app]; rewrite R2; reflexivity|]. split; [exact R3|]. split; [apply last_semi_app; assumption|].
      split; [|split; [discriminate|right; exists (Equals :: m'); left; reflexivity]]. intro C. split; [|exact (R4 C)].
      destruct R3 as (R6 & R7 & _ & R8). rewrite <- app_assoc in R6. cbn [app] in R6. replace (pre ++ Equals :: m' ++ [Semicolon]) with ((pre ++ Equals :: m') ++ [Semicolon]) in R7 by (rewrite <- app_assoc; reflexivity).
      rewrite open_after_app in R7. destruct (open_after [] (pre ++ Equals :: m')) as [s3|] eqn:E3; [|discriminate]. cbn [open_after] in R7. injection R7 as ->. apply (proj1 C (pre ++ Equals :: m') rest s2); [|exact E3|exact R8].
      rewrite R6. rewrite <- !app_assoc. reflexivity.
    + destruct R5 as (R5 & R6). apply (LP gt false ([Equals] ++ m) rest s2); [cbn [app]; rewrite R2; reflexivity|exact R3|apply no_semi_app; assumption|discriminate| |cbn [entry]; rewrite R1; reflexivity].
      intro C. destruct (R4 C) as [R7|R7]; [|right; exact R7]. destruct R6 as [(-> & ->)|[->|(m' & ->)]]; [right; destruct rest; [reflexivity|discriminate]|right; reflexivity|left]. split; [exact R7|].
      replace (pre ++ [Equals] ++ m' ++ [Comma]) with ((pre ++ [Equals] ++ m') ++ [Comma]) by (rewrite <- !app_assoc; reflexivity). apply fits_last; discriminate.
  - destruct (passed_one _ _ _ _ O) as (s1 & P1); try discriminate. destruct (after_tag_spec pre ts s1 (proj1 P1)) as (m & rest & s2 & S2 & -> & P2 & F2). destruct (passed_app _ _ _ _ _ _ P1 P2) as (Q1 & Q2 & Q3).
    apply (LP true gi ([Tag] ++ m) rest s2); [reflexivity|exact Q1|exact Q2|discriminate| |cbn [entry]; rewrite S2; reflexivity]. intro C. left. split; [apply Q3; apply K'; exact C|]. rewrite app_assoc. exact F2.
  - apply SKIP; try discriminate. reflexivity.
  - destruct gt eqn:EG; [apply (ONE true true)|apply (ONE true gi)]; try discriminate; reflexivity.
  - apply (ONE true gi); try discriminate. reflexivity.
  - apply SKIP; try discriminate. reflexivity.
  - apply (ONE gt gi); try discriminate. reflexivity.
  - apply (ONE gt gi); try discriminate. reflexivity.
Qed.
End File.

(** Any file: everything is covered, the splitter always ends. *)
Lemma skip_suffix : forall ts b n rest, skip b n ts = Some rest -> exists m, ts = m ++ rest.
Proof.
  induction ts as [|t ts IH]; intros b n rest E; [discriminate|].
  assert (G : forall n, skip b n ts = Some rest -> exists m, t :: ts = m ++ rest) by (intros k H; destruct (IH _ _ _ H) as (m & ->); exists (t :: m); reflexivity).
  destruct t; cbn [skip] in E; try (exact (G _ E)). destruct (same b0 b); [|exact (G _ E)]. destruct n as [|[|n]]; [| |exact (G _ E)]; injection E as <-; exists [Closes b0]; reflexivity.
Qed.

Definition shrinks {A : Type} (rest_of : A -> list token) (ts : list token) (o : outcome A) : Prop := match o with Done a => exists m, ts = m ++ rest_of a | Reported => True | Crash => False end.
Lemma shrinks_bind : forall A B (f : A -> list token) (g : B -> list token) ts o k, shrinks f ts o -> (forall a, shrinks g (f a) (k a)) -> shrinks g ts (obind o k).
Proof. intros A B f g ts [a| |] k S1 S2; cbn [obind shrinks] in *; auto. destruct S1 as (m & E). specialize (S2 a). destruct (k a) as [b| |]; cbn [shrinks] in *; auto. destruct S2 as (m' & E'). exists (m ++ m'). rewrite <- app_assoc, <- E'. exact E. Qed.
Lemma shrinks_cons : forall A (f : A -> list token) t ts o, shrinks f ts o -> shrinks f (t :: ts) o.
Proof. intros A f t ts [a| |]; cbn; auto. intros (m & ->). exists (t :: m). reflexivity. Qed.
Notation rests := (shrinks (fun r : list token => r)).

Lemma skipped_shrinks : forall b ts, rests ts (skipped b ts).
Proof. intros b ts. unfold skipped. destruct (skip b 1 ts) as [r|] eqn:E; [exact (skip_suffix _ _ _ _ E)|exact I]. Qed.
Lemma done_shrinks : forall ts, rests ts (Done ts).
Proof. intro ts. exists []. reflexivity. Qed.
Lemma skip_parens_shrinks : forall ts, rests ts (skip_parens ts).
Proof. intro ts. unfold skip_parens. destruct ts as [|[[]|b| | | | | | | | | |] ts]; try apply done_shrinks. apply shrinks_cons, skipped_shrinks. Qed.

(** Less is left than there was: the fuel is enough. *)
Lemma shrinks_fuel : forall A B (f : A -> list token) (g : B -> list token) (n : nat) ts o k, shrinks f ts o -> (length ts < n)%nat -> (forall a, (length (f a) < n)%nat -> shrinks g (f a) (k a)) -> shrinks g ts (obind o k).
Proof.
  intros A B f g n ts [a| |] k S1 L S2; cbn [obind shrinks] in *; auto. destruct S1 as (m & E). assert (S3 : shrinks g (f a) (k a)) by (apply S2; rewrite E, app_length in L; lia).
  destruct (k a) as [b| |]; cbn [shrinks] in *; auto. destruct S3 as (m' & E'). exists (m ++ m'). rewrite <- app_assoc, <- E'. exact E.
Qed.
Lemma declspecs_shrinks : forall fuel ts, (length ts < fuel)%nat -> rests ts (declspecs fuel ts).
Proof.
  induction fuel as [|fuel IH]; intros ts L; [lia|]. cbn [declspecs]. destruct ts as [|[] ts]; try apply done_shrinks. apply shrinks_cons.
  apply (shrinks_fuel _ _ (fun r => r) _ fuel); [apply skip_parens_shrinks|cbn [length] in L; lia|exact IH].
Qed.
Lemma after_tag_shrinks : forall ts, rests ts (after_tag ts).
Proof.
  intro ts. unfold after_tag. apply (shrinks_bind _ _ (fun r => r)); [apply declspecs_shrinks; lia|]. intro r.
  assert (G : forall r2, rests r2 (match r2 with Opens Curly :: ts3 => skipped Curly ts3 | _ => Done r2 end)).
  { intro r2. destruct r2 as [|[[]|b| | | | | | | | | |] r2]; try apply done_shrinks. apply shrinks_cons, skipped_shrinks. }
  destruct r as [|t r]; [exact (G [])|]. destruct t; try exact (G (_ :: r)).
  apply shrinks_cons, G.
Qed.
Lemma initializer_shrinks : forall fuel ts, (length ts < fuel)%nat -> shrinks snd ts (initializer fuel ts).
Proof.
  induction fuel as [|fuel IH]; intros ts L; [lia|]. cbn [initializer]. destruct ts as [|t ts]; [exists []; reflexivity|]. cbn [length] in L.
  destruct t; try (apply shrinks_cons, IH; lia); try (exists [Semicolon]; reflexivity); try (exists [Comma]; reflexivity).
  apply shrinks_cons. apply (shrinks_fuel _ _ (fun r => r) _ fuel); [apply skipped_shrinks|lia|exact IH].
Qed.
Lemma entry_shrinks : forall fuel gt gi ts, (length ts < fuel)%nat -> rests ts (entry fuel gt gi ts).
Proof.
  induction fuel as [|fuel IH]; intros gt gi ts L; [lia|]. cbn [entry]. destruct ts as [|t ts]; [apply done_shrinks|]. cbn [length] in L. apply shrinks_cons.
  assert (B : forall o gt gi, rests ts o -> rests ts (obind o (entry fuel gt gi))) by (intros o gt' gi' S; apply (shrinks_fuel _ _ (fun r => r) _ fuel); [exact S|lia|apply IH]).
  destruct t; try (apply IH; lia); try apply done_shrinks.
  - destruct b; [destruct gi; [apply B, skipped_shrinks|apply IH; lia]|apply B, skipped_shrinks|]. destruct (mentions_name 1 ts && negb gi); [exact I|apply skipped_shrinks].
  - apply (shrinks_fuel _ _ snd _ fuel); [apply initializer_shrinks; lia|lia|]. intros [semi r] Lr. cbn [fst snd] in *. destruct semi; [apply done_shrinks|apply IH; exact Lr].
  - apply B, after_tag_shrinks.
  - apply B, skip_parens_shrinks.
  - destruct gt; apply IH; lia.
  - apply B, skip_parens_shrinks.
Qed.

(** An entry takes at least one token. *)
Lemma entry_progress : forall fuel gt gi t ts rest, (length ts < fuel)%nat -> entry (S fuel) gt gi (t :: ts) = Done rest -> exists m, t :: ts = (t :: m) ++ rest.
Proof.
  intros fuel gt gi t ts rest L E.
  assert (G : rests ts (entry (S fuel) gt gi (t :: ts))); [|rewrite E in G; destruct G as (m & ->); exists m; reflexivity]. clear E. cbn [entry].
  assert (B : forall o gt gi, rests ts o -> rests ts (obind o (entry fuel gt gi))) by (intros o gt' gi' S; apply (shrinks_fuel _ _ (fun r => r) _ fuel); [exact S|lia|intros; apply entry_shrinks; assumption]).
  destruct t; try (apply entry_shrinks; lia); try apply done_shrinks.
  - destruct b; [destruct gi; [apply B, skipped_shrinks|apply entry_shrinks; lia]|apply B, skipped_shrinks|]. destruct (mentions_name 1 ts && negb gi); [exact I|apply skipped_shrinks].
  - apply (shrinks_fuel _ _ snd _ fuel); [apply initializer_shrinks; lia|lia|]. intros [semi r] Lr. cbn [fst snd] in *. destruct semi; [apply done_shrinks|apply entry_shrinks; exact Lr].
  - apply B, after_tag_shrinks.
  - apply B, skip_parens_shrinks.
  - destruct gt; apply entry_shrinks; lia.
  - apply B, skip_parens_shrinks.
Qed.

Lemma firstn_diff : forall (m rest : list token), firstn (length (m ++ rest) - length rest) (m ++ rest) = m.
Proof. intros. rewrite app_length. replace (length m + length rest - length rest)%nat with (length m) by lia. rewrite firstn_app, Nat.sub_diag, firstn_all. cbn. apply app_nil_r. Qed.

Lemma chunks_cover : forall fuel ts, (length ts < fuel)%nat -> match chunks_from fuel ts with Done cs => concat cs = ts /\ Forall (fun c => c <> []) cs | Reported => True | Crash => False end.
Proof.
  induction fuel as [|fuel IH]; intros ts L; [lia|]. cbn [chunks_from]. destruct ts as [|t ts]; [split; [reflexivity|constructor]|].
  assert (S1 := entry_shrinks (S (length (t :: ts))) false false (t :: ts) ltac:(lia)). destruct (entry _ _ _ _) as [rest| |] eqn:E; cbn [obind shrinks] in *; auto. clear S1.
  cbn [length] in E, L. apply entry_progress in E as (m & E); [|lia]. rewrite E. rewrite firstn_diff. specialize (IH rest). assert (LR : (length rest < fuel)%nat) by (assert (length (t :: ts) = length ((t :: m) ++ rest)) by (rewrite E; reflexivity); rewrite app_length in *; cbn [length] in *; lia).
  specialize (IH LR). destruct (chunks_from fuel rest) as [cs| |]; cbn [obind]; auto. destruct IH as (<- & F). split; [reflexivity|]. constructor; [discriminate|exact F].
Qed.

(** A file whose brackets match. *)
Section Nested.
Variable file : list token.
Definition cut_ok (pre : list token) (cs : list (list token)) : Prop :=
  (forall a b, cs = a ++ b -> exists st, open_after [] (pre ++ concat a) = Some st /\ parens_only st /\ (calm file -> st = [])) /\
  (forall a c b, cs = a ++ c :: b -> last_semi (pre ++ concat a) c /\ (b = [] \/ exists m, c = m ++ [Semicolon] \/ c = m ++ [Closes Curly])).

Lemma chunks_nested : forall fuel pre ts st, (length ts < fuel)%nat -> ok file pre ts st -> (calm file -> st = [] /\ (outside pre /\ fits pre ts \/ ts = [])) ->
  (chunks_from fuel ts = Reported /\ In Func_name ts) \/ exists cs, chunks_from fuel ts = Done cs /\ cut_ok pre cs.
Proof.
  induction fuel as [|fuel IH]; intros pre ts st L O K; [lia|]. cbn [chunks_from]. destruct ts as [|t ts].
  - right. exists []. split; [reflexivity|]. split.
    + intros a b E. symmetry in E. apply app_eq_nil in E as (-> & ->). exists st. cbn [concat]. rewrite app_nil_r. destruct O as (_ & O1 & _ & O2). split; [exact O1|]. split; [exact O2|]. intro C. exact (proj1 (K C)).
    + intros a c b E. destruct a; discriminate.
  - destruct (entry_spec file (S (length (t :: ts))) false false pre (t :: ts) st) as [(R & I)|(m & rest & st' & R1 & R2 & R3 & R4 & R5 & R6 & R7)]; [lia|exact O|intro C; exact (proj2 (K C))| |].
    { left. rewrite R. split; [reflexivity|exact I]. }
    rewrite R1. cbn [obind]. rewrite R2. rewrite firstn_diff. specialize (R6 ltac:(discriminate)).
    destruct (IH (pre ++ m) rest st') as [(E & I)|(cs & E & C1 & C2)].
    + assert (length (t :: ts) = length (m ++ rest)) by (rewrite R2; reflexivity). rewrite app_length in *. destruct m; [contradiction|]. cbn [length] in *. lia.
    + exact R3.
    + intro C. destruct (R5 C) as (S1 & S2). split; [exact S1|]. destruct S2 as [S2|S2]; [|right; exact S2]. destruct R7 as [R7|(m' & R7)]; [right; exact R7|left]. split; [exact S2|]. destruct R7 as [->| ->]; rewrite app_assoc; apply fits_last; discriminate.
    + left. rewrite E. split; [reflexivity|]. apply in_or_app. right. exact I.
    + right. exists (m :: cs). rewrite E. split; [reflexivity|]. split.
      * intros a b EA. destruct a as [|c a].
        -- exists st. cbn [concat]. rewrite app_nil_r. destruct O as (_ & O1 & _ & O2). split; [exact O1|]. split; [exact O2|]. intro C. exact (proj1 (K C)).
        -- injection EA as <- EA. destruct (C1 a b EA) as (s & S). exists s. cbn [concat]. rewrite app_assoc. exact S.
      * intros a c b EA. destruct a as [|d a].
        -- injection EA as <- <-. cbn [concat]. rewrite app_nil_r. split; [exact R4|]. destruct R7 as [->|R7]; [left|right; exact R7].
           destruct fuel; [discriminate|]. cbn in E. congruence.
        -- injection EA as <- EA. cbn [concat]. rewrite app_assoc. exact (C2 a c b EA).
Qed.
End Nested.

Lemma chunks_ok : forall file, nested file -> (chunks file = Reported /\ In Func_name file) \/ exists cs, chunks file = Done cs /\ cut_ok file [] cs.
Proof.
  intros file N. apply (chunks_nested file (S (length file)) [] file []); [lia| |].
  - split; [reflexivity|]. split; [reflexivity|]. split; [exact N|constructor].
  - intros _. split; [reflexivity|]. left. split; [reflexivity|]. intro a. split; intro E; destruct a; discriminate.
Qed.
