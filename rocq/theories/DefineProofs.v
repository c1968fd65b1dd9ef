(** Proofs about reading and comparing macro definitions (C37). *)
From Verif Require Import Base ScopeModel ScopeProofs DefineModel DefineSpec.

Lemma stripped_cons : forall t ts, is_space t = false -> stripped (t :: ts) = t :: stripped ts.
Proof. intros t ts E. unfold stripped. cbn [filter]. rewrite E. reflexivity. Qed.
Lemma eat_stripped : forall ts, eat (stripped ts) = stripped ts.
Proof. induction ts as [|t ts IH]; [reflexivity|]. destruct t; try exact IH; reflexivity. Qed.
Lemma eat_cases : forall ts, eat ts = [] /\ stripped ts = [] \/
  exists x r, eat ts = x :: r /\ stripped ts = x :: stripped r /\ is_space x = false /\ (length r < length ts)%nat /\ (forall t, In t (x :: r) -> In t ts) /\ (length (stripped r) < length (stripped ts))%nat.
Proof.
  induction ts as [|t ts IH]; [left; auto|].
  destruct t; try (right; eexists; eexists; split; [reflexivity|]; split; [apply stripped_cons; reflexivity|]; split; [reflexivity|]; split; [cbn; lia|]; split; [auto|]; rewrite stripped_cons by reflexivity; cbn; lia).
  destruct IH as [(A & B)|(x & r & A & B & C & D & E & F)]; [left; auto|].
  right. exists x, r. split; [exact A|]. split; [exact B|]. split; [exact C|]. split; [cbn; lia|]. split; [intros u Hu; right; apply E, Hu|exact F].
Qed.

Definition relate {A B} (R : A -> B -> Prop) (a : outcome A) (b : outcome B) : Prop :=
  match a, b with Done x, Done y => R x y | Reported, Reported => True | _, _ => False end.

(** ** Replacement lists, up to white space *)
Fixpoint norm (l : list node) : list node :=
  match l with
  | [] => []
  | Tokens ts :: r => fold_right add_token (norm r) (stripped ts)
  | x :: r => x :: norm r
  end.
Lemma norm_add : forall t l, norm (add_token t l) = if is_space t then norm l else add_token t (norm l).
Proof.
  intros t [|[ts|i|i|p q k] l]; cbn [add_token norm]; unfold stripped; cbn [filter]; destruct (is_space t); reflexivity.
Qed.

Lemma replacement_norm : forall fuel args ts strs fuel', (length ts < fuel)%nat -> (length (stripped ts) < fuel')%nat ->
  relate (fun l l' => l' = norm l) (replacement fuel args strs ts) (replacement fuel' args strs (stripped ts)).
Proof.
  induction fuel as [|fuel IH]; intros args ts strs fuel' F F'; [lia|]. destruct fuel' as [|fuel']; [lia|].
  destruct ts as [|t rest]; [reflexivity|].
  assert (Bind : forall (x y : node) a b, x = y -> (forall l, norm (x :: l) = y :: norm l) -> relate (fun l l' => l' = norm l) a b ->
     relate (fun l l' => l' = norm l) (obind a (fun l => Done (x :: l))) (obind b (fun l => Done (y :: l)))).
  { intros x y a b _ E Rl. destruct a, b; cbn in *; try contradiction; auto. subst. symmetry. apply E. }
  destruct (is_space t) eqn:Sp.
  { destruct t; try discriminate. change (replacement (S fuel) args strs (Space spelling :: rest)) with (obind (replacement fuel args strs rest) (fun l => Done (add_token (Space spelling) l))).
    change (stripped (Space spelling :: rest)) with (stripped rest) in *.
    assert (Q : relate (fun l l' => l' = norm l) (replacement fuel args strs rest) (replacement (S fuel') args strs (stripped rest))) by (apply IH; [cbn in F; lia|exact F']).
    destruct (replacement fuel args strs rest), (replacement (S fuel') args strs (stripped rest)); cbn [relate obind] in *; try contradiction; auto. rewrite norm_add. exact Q. }
  rewrite stripped_cons in * by exact Sp. cbn [length] in F, F'.
  cbn [replacement]. rewrite eat_stripped.
  destruct (argument_of args t) as [i|].
  - destruct (eat_cases rest) as [(A & B)|(x & r & A & B & C & D & _ & G)]; rewrite A, B; cbn [eat].
    + apply Bind; [reflexivity|reflexivity|]. apply (IH args [] strs fuel'); cbn; lia.
    + assert (Q : relate (fun l l' => l' = norm l) (replacement fuel args strs (x :: r)) (replacement fuel' args strs (x :: stripped r))).
      { rewrite <- (stripped_cons x r C). apply IH; [cbn; lia|]. rewrite stripped_cons by exact C. rewrite B in F'. cbn in *. lia. }
      destruct x; try discriminate; try (apply Bind; [reflexivity|reflexivity|exact Q]).
      rewrite eat_stripped. destruct (eat_cases r) as [(A2 & B2)|(y & r2 & A2 & B2 & C2 & D2 & _ & G2)]; rewrite A2, B2; [exact I|].
      apply Bind; [reflexivity|reflexivity|]. rewrite eat_stripped.
      destruct (eat_cases r2) as [(A3 & B3)|(z & r3 & A3 & B3 & C3 & D3 & _ & G3)]; rewrite A3, B3.
      * apply (IH args [] strs fuel'); cbn; lia.
      * rewrite <- (stripped_cons z r3 C3). apply IH; [cbn; lia|]. rewrite stripped_cons by exact C3. rewrite <- B3. lia.
  - destruct t; try discriminate.
    all: try (assert (Q : relate (fun l l' => l' = norm l) (replacement fuel args strs rest) (replacement fuel' args strs (stripped rest))) by (apply IH; lia);
      destruct (replacement fuel args strs rest), (replacement fuel' args strs (stripped rest)); cbn [relate obind] in *; try contradiction; auto; subst; rewrite norm_add; reflexivity).
    + destruct (eat_cases rest) as [(A & B)|(y & r & A & B & C & D & _ & G)]; rewrite A, B; [exact I|].
      destruct (argument_of args y) as [i|]; [|exact I]. destruct (stringify strs i) as (k & strs'). apply Bind; [reflexivity|reflexivity|]. rewrite eat_stripped.
      destruct (eat_cases r) as [(A3 & B3)|(z & r3 & A3 & B3 & C3 & D3 & _ & G3)]; rewrite A3, B3.
      * apply (IH args [] strs' fuel'); cbn; lia.
      * rewrite <- (stripped_cons z r3 C3). apply IH; [cbn; lia|]. rewrite stripped_cons by exact C3. rewrite <- B3. lia.
    + destruct (eat_cases rest) as [(A & B)|(y & r & A & B & C & D & _ & G)]; rewrite A, B; [exact I|].
      apply Bind; [reflexivity|reflexivity|]. rewrite eat_stripped.
      destruct (eat_cases r) as [(A3 & B3)|(z & r3 & A3 & B3 & C3 & D3 & _ & G3)]; rewrite A3, B3.
      * apply (IH args [] strs fuel'); cbn; lia.
      * rewrite <- (stripped_cons z r3 C3). apply IH; [cbn; lia|]. rewrite stripped_cons by exact C3. rewrite <- B3. lia.
Qed.

(** ** The shape of replacement lists *)
Fixpoint shaped (tokens_allowed : bool) (l : list node) : Prop :=
  match l with
  | [] => True
  | Tokens ts :: r => tokens_allowed = true /\ stripped ts <> [] /\ shaped false r
  | _ :: r => shaped true r
  end.
Definition half_shaped (l : list node) : Prop := match l with Tokens _ :: r => shaped false r | _ => shaped true l end.
Lemma shaped_half : forall l, shaped true l -> half_shaped l.
Proof. intros [|[] l]; cbn; tauto. Qed.
Lemma add_half : forall t l, half_shaped l -> half_shaped (add_token t l) /\ (is_space t = false -> shaped true (add_token t l)).
Proof.
  intros t [|[ts|i|i|p q k] l] Hl; cbn in *; (split; [auto|]); intros Sp; unfold stripped; cbn; rewrite Sp; cbn; (split; [reflexivity|]); (split; [discriminate|auto]).
Qed.
Lemma replacement_shaped : forall fuel args ts strs l, replacement fuel args strs ts = Done l ->
  half_shaped l /\ (match ts with Space _ :: _ => True | _ => shaped true l end).
Proof.
  induction fuel as [|fuel IH]; intros args ts strs l E; [discriminate|]. cbn [replacement] in E.
  assert (Full : forall r strs l, replacement fuel args strs (eat r) = Done l -> shaped true l).
  { intros r strs0 l0 E0. apply IH in E0 as (_ & E0). destruct (eat_cases r) as [(A & _)|(x & q & A & _ & C & _)]; rewrite A in E0; [exact E0|destruct x; try discriminate; exact E0]. }
  destruct ts as [|t rest]; [assert (l = []) by congruence; subst; cbn; auto|].
  destruct (argument_of args t) as [i|] eqn:Ar.
  - assert (Nt : match t with Space _ => False | _ => True end) by (destruct t; try exact I; discriminate).
    assert (Sh : shaped true l).
    { assert (El : exists x l0 r0, l = x :: l0 /\ (forall b, shaped b l = shaped true l0) /\ replacement fuel args strs (eat r0) = Done l0).
      { destruct (eat rest) as [|x r] eqn:Er.
        - destruct (replacement fuel args strs []) as [l0| |] eqn:E0; try discriminate. cbn in E. exists (Argument i), l0, rest. assert (l = Argument i :: l0) by congruence. subst. rewrite Er. auto.
        - destruct x; try (destruct (replacement fuel args strs _) as [l0| |] eqn:E0; try discriminate; cbn in E; exists (Argument i), l0, rest; assert (l = Argument i :: l0) by congruence; subst; rewrite Er; auto).
          destruct (eat r) as [|p r2]; [discriminate|]. destruct (replacement fuel args strs (eat r2)) as [l0| |] eqn:E0; try discriminate. cbn in E.
          exists (Paste (Some i) (argument_of args p) p), l0, r2. assert (l = Paste (Some i) (argument_of args p) p :: l0) by congruence. subst. auto. }
      destruct El as (x & l0 & r0 & -> & Sx & E0). rewrite Sx. eapply Full, E0. }
    split; [apply shaped_half; exact Sh|destruct t; try exact I; exact Sh].
  - destruct t; try discriminate.
    all: try (destruct (replacement fuel args strs rest) as [l0| |] eqn:E0; try discriminate; cbn in E; apply IH in E0 as (E0 & _);
      match type of E with Done (add_token ?t _) = _ => assert (l = add_token t l0) by congruence; subst l; destruct (add_half t l0 E0) as (A & B); split; [exact A|try exact I; apply B; reflexivity] end).
    + destruct (eat rest) as [|p r]; [discriminate|]. destruct (argument_of args p); [|discriminate]. destruct (stringify strs n) as (k & strs').
      destruct (replacement fuel args strs' (eat r)) as [l0| |] eqn:E0; try discriminate. cbn in E. assert (l = Stringify k :: l0) by congruence. subst. cbn. split; eapply Full, E0.
    + destruct (eat rest) as [|p r]; [discriminate|].
      destruct (replacement fuel args strs (eat r)) as [l0| |] eqn:E0; try discriminate. cbn in E. assert (l = Paste None (argument_of args p) p :: l0) by congruence. subst. cbn. split; eapply Full, E0.
Qed.

Definition n1 (x : node) : node := match x with Tokens ts => Tokens (stripped ts) | _ => x end.
Lemma fold_add : forall ts l, ts <> [] -> match l with Tokens _ :: _ => False | _ => True end -> fold_right add_token l ts = Tokens ts :: l.
Proof.
  induction ts as [|t ts IH]; intros l N Hl; [contradiction|]. cbn [fold_right]. destruct ts as [|u ts]; [cbn; destruct l as [|[] l]; cbn; try reflexivity; contradiction|].
  rewrite IH by (discriminate || exact Hl). reflexivity.
Qed.
Lemma norm_map : forall l b, shaped b l -> norm l = map n1 l.
Proof.
  induction l as [|x l IH]; intros b S; [reflexivity|]. destruct x; cbn [norm map n1]; try (f_equal; eapply IH; exact S).
  cbn in S. destruct S as (_ & N & S). rewrite (IH _ S). apply fold_add; [exact N|]. destruct l as [|[] l]; cbn in *; try exact I. destruct S; discriminate.
Qed.

(** ** Comparing *)
Lemma runs_match_spec : forall fuel a b, (length a < fuel)%nat -> exists r, runs_match fuel a b = Done r /\ (r = true <-> stripped a = stripped b).
Proof.
  induction fuel as [|fuel IH]; intros a b F; [lia|]. cbn [runs_match].
  destruct (eat_cases a) as [(A & B)|(x & r & A & B & C & D & _)], (eat_cases b) as [(A' & B')|(y & r' & A' & B' & C' & D' & _)]; rewrite A, A', B, B'.
  - exists true. tauto.
  - exists false. split; [reflexivity|]. split; discriminate.
  - exists false. split; [reflexivity|]. split; discriminate.
  - unfold atoms_match. destruct (token_dec x y) as [->|N].
    + destruct (IH r r' ltac:(lia)) as (q & E & Q). exists q. split; [exact E|]. rewrite Q. split; [intros ->; reflexivity|congruence].
    + exists false. split; [reflexivity|]. split; [discriminate|congruence].
Qed.
Lemma index_eqb_refl : forall a, index_eqb a a = true.
Proof. intros [x|]; cbn; [apply Nat.eqb_refl|reflexivity]. Qed.

Lemma lists_match_done : forall a b, exists r, lists_match a b = Done r.
Proof.
  induction a as [|x a IH]; intros [|y b]; try (eexists; reflexivity). cbn [lists_match]. destruct (IH b) as (r & Er).
  destruct x, y; cbn [obind]; try (eexists; reflexivity).
  - destruct (runs_match_spec (S (length ts)) ts ts0 ltac:(lia)) as (q & -> & _). cbn [obind]. destruct q; eexists; [exact Er|reflexivity].
  - destruct (Nat.eqb i i0); eexists; [exact Er|reflexivity].
  - destruct (Nat.eqb stringify_index stringify_index0); eexists; [exact Er|reflexivity].
  - destruct (index_eqb prefix prefix0 && index_eqb postfix postfix0); eexists; [exact Er|reflexivity].
Qed.

Lemma lists_match_same : forall a b, map n1 a = map n1 b -> lists_match a b = Done true.
Proof.
  induction a as [|x a IH]; intros [|y b] E; try discriminate; [reflexivity|]. cbn [map] in E. injection E as Exy E. cbn [lists_match]. specialize (IH b E).
  destruct x, y; cbn [n1] in Exy; try discriminate.
  - destruct (runs_match_spec (S (length ts)) ts ts0 ltac:(lia)) as (q & -> & Q). cbn [obind]. assert (q = true) as -> by (apply Q; congruence). exact IH.
  - assert (i0 = i) by congruence. subst. rewrite Nat.eqb_refl. exact IH.
  - assert (stringify_index0 = stringify_index) by congruence. subst. rewrite Nat.eqb_refl. exact IH.
  - assert (prefix0 = prefix /\ postfix0 = postfix) as (-> & ->) by (split; congruence). rewrite !index_eqb_refl. exact IH.
Qed.
Lemma arguments_match_iff : forall a b, arguments_match a b = true <-> a = b.
Proof.
  induction a as [|x a IH]; intros [|y b]; cbn [arguments_match]; try (split; congruence). rewrite andb_true_iff, IH.
  unfold names_match. destruct (name_eq x y) as [->|N]; split.
  - intros (_ & ->). reflexivity.
  - intros E. split; [reflexivity|congruence].
  - intros (Q & _). discriminate.
  - intros E. exfalso. congruence.
Qed.

(** ** Texts that differ in white space only *)
Lemma parameters_norm : forall fuel args ts fuel', (length ts < fuel)%nat -> (length (stripped ts) < fuel')%nat ->
  relate (fun x y => y = (fst (fst x), snd (fst x), stripped (snd x))) (parameters fuel args ts) (parameters fuel' args (stripped ts)).
Proof.
  induction fuel as [|fuel IH]; intros args ts fuel' F F'; [lia|]. destruct fuel' as [|fuel']; [lia|]. cbn [parameters]. rewrite eat_stripped.
  destruct (eat_cases ts) as [(A & B)|(x & r & A & B & C & D & _ & G)]; rewrite A, B; [exact I|].
  destruct x; try exact I.
  - destruct (position n args); [exact I|]. rewrite eat_stripped.
    destruct (eat_cases r) as [(A2 & B2)|(y & r2 & A2 & B2 & C2 & D2 & _ & G2)]; rewrite A2, B2; [exact I|].
    destruct y; try exact I; [reflexivity|]. apply IH; lia.
  - rewrite eat_stripped. destruct (eat_cases r) as [(A2 & B2)|(y & r2 & A2 & B2 & C2 & D2 & _ & G2)]; rewrite A2, B2; [exact I|]. destruct y; try exact I. reflexivity.
Qed.

Definition alike (d d' : define) : Prop :=
  is_function_like d = is_function_like d' /\ is_varargs d = is_varargs d' /\ arguments d = arguments d' /\ map n1 (replacement_list d) = map n1 (replacement_list d').

Lemma rest_norm : forall fl va args a b, stripped a = stripped b -> relate alike (parse_rest fl va args a) (parse_rest fl va args b).
Proof.
  intros fl va args a b E. unfold parse_rest.
  assert (Key : forall s s', stripped s = stripped s' -> (match s with Space _ :: _ => False | _ => True end) -> (match s' with Space _ :: _ => False | _ => True end) ->
     relate alike (obind (replacement (S (length s)) args [] s) (fun l => Done (mkdefine fl va args l))) (obind (replacement (S (length s')) args [] s') (fun l => Done (mkdefine fl va args l)))).
  { intros s s' Es Hs Hs'.
    pose proof (replacement_norm (S (length s)) args s [] (S (length (stripped s))) ltac:(lia) ltac:(lia)) as Q.
    pose proof (replacement_norm (S (length s')) args s' [] (S (length (stripped s))) ltac:(lia) ltac:(rewrite Es; lia)) as Q'. rewrite <- Es in Q'.
    pose proof (replacement_shaped (S (length s)) args s []) as W. pose proof (replacement_shaped (S (length s')) args s' []) as W'.
    destruct (replacement (S (length s)) args [] s) as [l| |], (replacement (S (length s')) args [] s') as [l'| |], (replacement (S (length (stripped s))) args [] (stripped s)) as [k| |]; cbn in *; try contradiction; auto.
    destruct (W l eq_refl) as (_ & Wl), (W' l' eq_refl) as (_ & Wl'). split; [reflexivity|]. split; [reflexivity|]. split; [reflexivity|]. cbn.
    rewrite <- (norm_map l true), <- (norm_map l' true); [congruence| |].
    - destruct s' as [|[] s']; try exact Wl'; contradiction.
    - destruct s as [|[] s]; try exact Wl; contradiction. }
  destruct (eat_cases a) as [(A & B)|(x & r & A & B & C & _)], (eat_cases b) as [(A' & B')|(x' & r' & A' & B' & C' & _)]; rewrite A, A'; rewrite B, B' in E; try discriminate.
  - apply (Key [] []); try exact I. reflexivity.
  - injection E as -> E.
    assert (K : relate alike (obind (replacement (S (length (x' :: r))) args [] (x' :: r)) (fun l => Done (mkdefine fl va args l))) (obind (replacement (S (length (x' :: r'))) args [] (x' :: r')) (fun l => Done (mkdefine fl va args l)))).
    { apply Key; [rewrite !stripped_cons by exact C; congruence| |]; destruct x'; try exact I; discriminate. }
    destruct x'; try discriminate; try exact K. exact I.
Qed.

Lemma parse_same : forall a b, same_text a b -> relate alike (parse_define a) (parse_define b).
Proof.
  intros a b (O & E). unfold parse_define.
  assert (Hd : relate (fun x y => fst x = fst y /\ stripped (snd x) = stripped (snd y)) (parse_head a) (parse_head b)).
  { assert (Plain : forall t, opens t = false -> parse_head t = Done (false, false, [], t)) by (intros [|[] t] Q; try reflexivity; discriminate).
    destruct (opens a) eqn:Oa; [|rewrite !Plain by congruence; cbn; auto].
    destruct a as [|[] a]; try discriminate. destruct b as [|[] b]; try discriminate. rewrite !stripped_cons in E by reflexivity. injection E as E. cbn [parse_head].
    assert (Key : forall s s', stripped s = stripped s' -> relate (fun x y => fst x = fst y /\ stripped (snd x) = stripped (snd y))
       (obind (parameters (S (length s)) [] s) (fun '(args, va, ts) => Done (true, va, args, ts))) (obind (parameters (S (length s')) [] s') (fun '(args, va, ts) => Done (true, va, args, ts)))).
    { intros s s' Es.
      pose proof (parameters_norm (S (length s)) [] s (S (length (stripped s))) ltac:(lia) ltac:(lia)) as Q.
      pose proof (parameters_norm (S (length s')) [] s' (S (length (stripped s))) ltac:(lia) ltac:(rewrite Es; lia)) as Q'. rewrite <- Es in Q'.
      destruct (parameters (S (length s)) [] s) as [((ar & va) & ts)| |], (parameters (S (length s')) [] s') as [((ar' & va') & ts')| |], (parameters (S (length (stripped s))) [] (stripped s)) as [k| |];
        cbn in *; try contradiction; auto. subst k. injection Q' as E1 E2 E3. split; congruence. }
    destruct (eat_cases a) as [(A & B)|(x & r & A & B & C & _)], (eat_cases b) as [(A' & B')|(x' & r' & A' & B' & C' & _)]; rewrite A, A'; rewrite B, B' in E; try discriminate.
    - apply (Key [] []). reflexivity.
    - injection E as -> E. pose proof (Key (x' :: r) (x' :: r') ltac:(rewrite !stripped_cons by exact C; congruence)) as K.
      destruct x'; try discriminate; try exact K. cbn. auto. }
  destruct (parse_head a) as [(((fl & va) & args) & ts)| |], (parse_head b) as [(((fl' & va') & args') & ts')| |]; cbn in *; try contradiction; auto.
  destruct Hd as (Q & Es). injection Q as <- <- <-. apply rest_norm. exact Es.
Qed.

Theorem same_accepted : forall a b da, same_text a b -> parse_define a = Done da -> exists db, parse_define b = Done db /\ equivalent db da = Done true.
Proof.
  intros a b da S E. pose proof (parse_same a b S) as Q. rewrite E in Q. destruct (parse_define b) as [db| |]; cbn in Q; try contradiction.
  exists db. split; [reflexivity|]. destruct Q as (Q1 & Q2 & Q3 & Q4). unfold equivalent. rewrite (lists_match_same (replacement_list db) (replacement_list da)) by congruence. cbn [obind].
  rewrite Q3, Q1. assert (arguments_match (arguments db) (arguments db) = true) as -> by (apply arguments_match_iff; reflexivity). rewrite Bool.eqb_reflx. reflexivity.
Qed.

(** ** Definitions that are accepted as the same *)
Fixpoint text (args : list name) (l : list node) : list token :=
  match l with
  | [] => []
  | Tokens ts :: l => stripped ts ++ text args l
  | Argument i :: l => Ident (nth i args []) :: text args l
  | _ :: l => text args l
  end.
Definition ordinary (x : node) : Prop := match x with Tokens _ | Argument _ => True | _ => False end.

Lemma position_nth : forall n args i, position n args = Some i -> nth i args [] = n.
Proof.
  intros n args. induction args as [|a args IH]; intros i E; [discriminate|]. cbn in E. unfold names_match in E. destruct (name_eq a n) as [->|]; [assert (i = O) by congruence; subst; reflexivity|].
  destruct (position n args) as [k|]; [|discriminate]. assert (i = S k) by (cbn in E; congruence). subst. cbn. apply IH. reflexivity.
Qed.

Lemma text_add : forall args t l, text args (add_token t l) = stripped [t] ++ text args l.
Proof. intros args t [|[ts|i|i|p q k] l]; cbn [add_token text]; try reflexivity. unfold stripped. cbn [filter]. destruct (is_space t); reflexivity. Qed.

Lemma replacement_text : forall fuel args ts strs l, ~ In Hash ts -> ~ In HashHash ts -> replacement fuel args strs ts = Done l -> Forall ordinary l /\ stripped ts = text args l.
Proof.
  induction fuel as [|fuel IH]; intros args ts strs l N1 N2 E; [discriminate|]. cbn [replacement] in E.
  destruct ts as [|t rest]; [assert (l = []) by congruence; subst; split; [constructor|reflexivity]|].
  assert (M1 : ~ In Hash rest) by (intro Q; apply N1; right; exact Q). assert (M2 : ~ In HashHash rest) by (intro Q; apply N2; right; exact Q).
  destruct (argument_of args t) as [i|] eqn:Ar.
  - destruct t; try discriminate. cbn in Ar. apply position_nth in Ar. rewrite stripped_cons by reflexivity.
    assert (K : forall r, eat rest = r -> obind (replacement fuel args strs r) (fun l => Done (Argument i :: l)) = Done l -> Forall ordinary l /\ Ident n :: stripped rest = text args l).
    { intros r Er Q. destruct (replacement fuel args strs r) as [l0| |] eqn:E0; try discriminate. cbn in Q. assert (l = Argument i :: l0) by congruence. subst l.
      assert (Sr : stripped r = stripped rest) by (subst r; destruct (eat_cases rest) as [(A & B)|(x & q & A & B & C & _)]; rewrite A, B; [reflexivity|apply stripped_cons, C]).
      apply IH in E0 as (E1 & E2).
      - split; [constructor; [exact I|exact E1]|]. cbn [text]. congruence.
      - intro Q'. destruct (eat_cases rest) as [(A & B)|(x & q & A & B & C & _ & D & _)]; subst r; rewrite A in Q'; [destruct Q'|apply M1, D, Q'].
      - intro Q'. destruct (eat_cases rest) as [(A & B)|(x & q & A & B & C & _ & D & _)]; subst r; rewrite A in Q'; [destruct Q'|apply M2, D, Q']. }
    destruct (eat_cases rest) as [(A & B)|(x & q & A & B & C & _ & D & _)]; rewrite A in E, K.
    + apply (K [] eq_refl E).
    + destruct x; try exact (K _ eq_refl E). destruct M2. apply D. left. reflexivity.
  - destruct t; try discriminate; try (destruct N1; left; reflexivity); try (destruct N2; left; reflexivity).
    all: destruct (replacement fuel args strs rest) as [l0| |] eqn:E0; try discriminate; cbn in E; apply IH in E0 as (E1 & E2); [|exact M1|exact M2];
      match type of E with Done (add_token ?t _) = _ => assert (l = add_token t l0) by congruence; subst l; rewrite text_add, <- E2;
        (split; [destruct l0 as [|[] l0]; inversion E1; subst; cbn; repeat constructor; assumption|reflexivity]) end.
Qed.

Lemma match_text : forall args a b, Forall ordinary a -> lists_match a b = Done true -> text args a = text args b.
Proof.
  intros args a. induction a as [|x a IH]; intros [|y b] O E; try discriminate; [reflexivity|]. inversion O as [|? ? Ox Oa]; subst. cbn [lists_match] in E.
  destruct x, y; cbn [ordinary] in Ox; try contradiction; try discriminate.
  - destruct (runs_match_spec (S (length ts)) ts ts0 ltac:(lia)) as (q & Eq & Q). rewrite Eq in E. cbn [obind] in E. destruct q; [|discriminate]. cbn [text]. rewrite (proj1 Q eq_refl). f_equal. apply IH; assumption.
  - cbn [obind] in E. destruct (Nat.eqb_spec i i0) as [->|]; [|discriminate]. cbn [text]. f_equal. apply IH; assumption.
Qed.

Fixpoint parameter_text (va : bool) (ns : list name) : list token :=
  match ns with
  | [] => []
  | n :: [] => if va then [Dots; Closed] else [Ident n; Closed]
  | n :: ns => Ident n :: Comma :: parameter_text va ns
  end.

Lemma eat_up_to : forall ts t, In t (up_to_closed (eat ts)) -> In t (up_to_closed ts).
Proof. induction ts as [|x ts IH]; intros t Q; [exact Q|]. destruct x; try exact Q. cbn. right. apply IH. exact Q. Qed.

Lemma parameters_text : forall fuel args ts args' va r, parameters fuel args ts = Done (args', va, r) ->
  exists ns, ns <> [] /\ args' = args ++ ns /\ stripped ts = parameter_text va ns ++ stripped r /\ (va = true -> exists ns', ns = ns' ++ [va_args]) /\
    (va = false -> forall n, In n ns -> In (Ident n) (up_to_closed ts)) /\ (forall t, In t r -> In t ts).
Proof.
  induction fuel as [|fuel IH]; intros args ts args' va r E; [discriminate|]. cbn [parameters] in E.
  destruct (eat_cases ts) as [(A & B)|(x & q & A & B & C & _ & D & _)]; rewrite A in E; [discriminate|].
  destruct x; try discriminate.
  - destruct (position n args); [discriminate|]. assert (In0 : In (Ident n) (up_to_closed ts)) by (apply eat_up_to; rewrite A; left; reflexivity).
    destruct (eat_cases q) as [(A2 & B2)|(y & q2 & A2 & B2 & C2 & _ & D2 & _)]; rewrite A2 in E; [discriminate|]. destruct y; try discriminate.
    + assert (args' = args ++ [n] /\ va = false /\ r = q2) as (-> & -> & ->) by (repeat split; congruence). exists [n].
      split; [discriminate|]. split; [reflexivity|]. split; [rewrite B, B2; reflexivity|]. split; [discriminate|]. split.
      * intros _ k [<-|[]]. exact In0.
      * intros t Ht. apply D. right. apply D2. right. exact Ht.
    + apply IH in E as (ns & Ne & -> & Tx & V1 & V2 & Sub). exists (n :: ns). split; [discriminate|]. split; [rewrite <- app_assoc; reflexivity|].
      split; [rewrite B, B2, Tx; destruct ns; [contradiction|reflexivity]|]. split; [|split].
      * intros Ev. destruct (V1 Ev) as (ns' & ->). exists (n :: ns'). reflexivity.
      * intros Ev k [<-|Hk]; [exact In0|]. apply eat_up_to. rewrite A. cbn. right. apply eat_up_to. rewrite A2. cbn. right. apply V2; assumption.
      * intros t Ht. apply D. right. apply D2. right. apply Sub, Ht.
  - destruct (eat_cases q) as [(A2 & B2)|(y & q2 & A2 & B2 & C2 & _ & D2 & _)]; rewrite A2 in E; [discriminate|]. destruct y; try discriminate.
    assert (args' = args ++ [va_args] /\ va = true /\ r = q2) as (-> & -> & ->) by (repeat split; congruence). exists [va_args].
    split; [discriminate|]. split; [reflexivity|]. split; [rewrite B, B2; reflexivity|]. split; [intros _; exists []; reflexivity|]. split; [discriminate|].
    intros t Ht. apply D. right. apply D2. right. exact Ht.
Qed.

(** The head of a definition is determined by what the comparison looks at. *)
Definition head_text (fl va : bool) (args : list name) : list token :=
  if fl then Open :: (match args with [] => [Closed] | _ => parameter_text va args end) else [].
Lemma head_spec : forall ts fl va args r, parse_head ts = Done (fl, va, args, r) ->
  opens ts = fl /\ stripped ts = head_text fl va args ++ stripped r /\ (forall t, In t r -> In t ts) /\ (va = true -> exists ns, args = ns ++ [va_args]) /\
  (va = false -> forall n, In n args -> fl = true /\ In (Ident n) (up_to_closed ts)).
Proof.
  intros ts fl va args r E.
  assert (Plain : opens ts = false -> parse_head ts = Done (false, false, [], ts)) by (intro Q; destruct ts as [|[] ts]; try reflexivity; discriminate).
  destruct (opens ts) eqn:O.
  - destruct ts as [|[] ts]; try discriminate. cbn [parse_head] in E. clear Plain.
    assert (K : forall s, (exists s0, ts = s0 /\ eat s0 = s) -> obind (parameters (S (length s)) [] s) (fun '(args, va, ts) => Done (true, va, args, ts)) = Done (fl, va, args, r) ->
       true = fl /\ stripped (Open :: ts) = head_text fl va args ++ stripped r /\ (forall t, In t r -> In t (Open :: ts)) /\ (va = true -> exists ns, args = ns ++ [va_args]) /\
       (va = false -> forall n, In n args -> fl = true /\ In (Ident n) (up_to_closed (Open :: ts)))).
    { intros s (s0 & <- & Es) Q. destruct (parameters (S (length s)) [] s) as [((ar & v) & t)| |] eqn:Ep; try discriminate. cbn in Q.
      assert (true = fl /\ v = va /\ ar = args /\ t = r) as (<- & -> & -> & ->) by (repeat split; congruence).
      apply parameters_text in Ep as (ns & Ne & -> & Tx & V1 & V2 & Sub). cbn [app] in *. split; [reflexivity|].
      assert (Ss : stripped s = stripped ts) by (subst s; destruct (eat_cases ts) as [(A & B)|(x & q & A & B & C & _)]; rewrite A, B; [reflexivity|apply stripped_cons, C]).
      split; [rewrite stripped_cons by reflexivity; rewrite <- Ss, Tx; unfold head_text; destruct ns; [contradiction|reflexivity]|]. split; [|split].
      - intros t Ht. right. specialize (Sub t Ht). subst s. destruct (eat_cases ts) as [(A & B)|(x & q & A & B & C & _ & D & _)]; rewrite A in Sub; [destruct Sub|apply D, Sub].
      - exact V1.
      - intros Ev n Hn. split; [reflexivity|]. cbn. right. apply eat_up_to. rewrite Es. apply V2; assumption. }
    destruct (eat_cases ts) as [(A & B)|(x & q & A & B & C & _ & D & _)]; rewrite A in E.
    + apply (K []); [exists ts; auto|exact E].
    + assert (Kx := K (x :: q) (ex_intro _ ts (conj eq_refl A))). destruct x; try exact (Kx E).
      assert (true = fl /\ false = va /\ [] = args /\ q = r) as (<- & <- & <- & ->) by (repeat split; congruence).
      split; [reflexivity|]. split; [rewrite stripped_cons by reflexivity; rewrite B; reflexivity|]. split; [intros t Ht; right; apply D; right; exact Ht|]. split; [discriminate|intros _ n []].
  - rewrite (Plain eq_refl) in E. assert (false = fl /\ false = va /\ [] = args /\ ts = r) as (<- & <- & <- & ->) by (repeat split; congruence).
    split; [reflexivity|]. split; [reflexivity|]. split; [auto|]. split; [discriminate|intros _ n []].
Qed.

Lemma define_spec : forall ts d, plain ts -> parse_define ts = Done d ->
  opens ts = is_function_like d /\ stripped ts = head_text (is_function_like d) (is_varargs d) (arguments d) ++ text (arguments d) (replacement_list d) /\ Forall ordinary (replacement_list d) /\
  (is_varargs d = true <-> In va_args (arguments d)).
Proof.
  intros ts d (N1 & N2 & N3) E. unfold parse_define in E. destruct (parse_head ts) as [(((fl & va) & args) & r)| |] eqn:Eh; try discriminate. cbn [obind] in E.
  apply head_spec in Eh as (O & Tx & Sub & V1 & V2). unfold parse_rest in E.
  assert (K : obind (replacement (S (length (eat r))) args [] (eat r)) (fun l => Done (mkdefine fl va args l)) = Done d).
  { destruct (eat r) as [|[] q]; try exact E; discriminate. }
  destruct (replacement (S (length (eat r))) args [] (eat r)) as [l| |] eqn:Er; try discriminate. cbn in K. assert (d = mkdefine fl va args l) by congruence. subst d. cbn.
  assert (Se : stripped (eat r) = stripped r /\ (forall t, In t (eat r) -> In t r)).
  { destruct (eat_cases r) as [(A & B)|(x & q & A & B & C & _ & D & _)]; rewrite A, B; [split; [reflexivity|intros t []]|split; [apply stripped_cons, C|exact D]]. }
  destruct Se as (Se1 & Se2). apply replacement_text in Er as (R1 & R2).
  - split; [exact O|]. split; [rewrite Tx, <- Se1, R2; reflexivity|]. split; [exact R1|]. split.
    + intro Ev. destruct (V1 Ev) as (ns & ->). apply in_or_app. right. left. reflexivity.
    + intro Hn. destruct va; [reflexivity|]. exfalso. destruct (V2 eq_refl va_args Hn) as (-> & Q). apply (N3 O Q).
  - intro Q. apply N1, Sub, Se2, Q.
  - intro Q. apply N2, Sub, Se2, Q.
Qed.

Theorem accepted_same : forall a b da db, plain a -> plain b -> parse_define a = Done da -> parse_define b = Done db -> equivalent db da = Done true -> same_text a b.
Proof.
  intros a b da db Pa Pb Ea Eb E. destruct (define_spec a da Pa Ea) as (A1 & A2 & A3 & A4), (define_spec b db Pb Eb) as (B1 & B2 & B3 & B4).
  unfold equivalent in E. destruct (lists_match_done (replacement_list db) (replacement_list da)) as (r & Er). rewrite Er in E. cbn [obind] in E.
  destruct r; [|discriminate]. destruct (arguments_match (arguments da) (arguments db)) eqn:Am; [|discriminate]. destruct (Bool.eqb (is_function_like da) (is_function_like db)) eqn:Fm; [|discriminate].
  apply arguments_match_iff in Am. apply Bool.eqb_prop in Fm. split; [congruence|]. rewrite A2, B2, Fm, Am.
  assert (is_varargs da = is_varargs db) as ->.
  { rewrite Am in A4. destruct (is_varargs da), (is_varargs db); try reflexivity; [symmetry; apply B4, A4; reflexivity|apply A4, B4; reflexivity]. }
  f_equal. symmetry. apply match_text; assumption.
Qed.
Lemma equivalent_done : forall a b, exists r, equivalent a b = Done r.
Proof. intros a b. unfold equivalent. destruct (lists_match_done (replacement_list a) (replacement_list b)) as (r & ->). cbn. eexists. reflexivity. Qed.
