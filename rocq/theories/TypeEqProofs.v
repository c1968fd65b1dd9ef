(** Proofs about the comparison of types (C39). *)
From Verif Require Import Base ScopeModel TypeEqModel TypeEqSpec.

Lemma match_refl : forall n, names_match n n = true.
Proof. intro n. unfold names_match. destruct (name_eq n n); congruence. Qed.
Lemma match_eq : forall n m, names_match n m = true -> n = m.
Proof. intros n m. unfold names_match. destruct (name_eq n m); congruence. Qed.
Lemma match_sym : forall n m, names_match n m = names_match m n.
Proof. intros n m. unfold names_match. destruct (name_eq n m), (name_eq m n); congruence. Qed.

Lemma if_inv : forall a b, obind_if a b = Done true -> a = Done true /\ b = Done true.
Proof. intros [[|]| |] b H; cbn in H; try discriminate. auto. Qed.

Section P.
Variable same : ty -> ty -> bool.
Variable lookup : name -> option ty.
Hypothesis Addr : addresses same lookup.
Hypothesis Tab : tables lookup.
Notation eq := (types_are_equal same lookup).
Notation behind := (equal_behind same lookup).
Notation resolve := (resolve lookup).
Notation resolve_argument := (resolve_argument lookup).

Definition T (f : nat) (w g : ty) : outcome bool :=
  match unresolved_names w g with
  | Some r => Done r
  | None => match resolve w, resolve g with Some w, Some g => behind (eq f) w g | _, _ => Done false end
  end.

Notation poison := is_poison.
Definition both_pointers (a b : ty) : bool := match a, b with Pointer _, Pointer _ => true | _, _ => false end.
Definition both_unresolved (a b : ty) : bool := match a, b with Unresolved _, Unresolved _ => true | _, _ => false end.

Lemma lookup_not_pointer : forall n t, lookup n = Some t -> match t with Pointer _ => False | Unresolved _ => False | Poison => False | _ => True end.
Proof. intros n t H. destruct (Tab n t H) as (_ & Q). destruct t; auto. Qed.
Lemma resolve_pointer : forall a w, resolve a = Some (Pointer w) -> a = Pointer w.
Proof. intros a w H. destruct a; cbn in H; try congruence. apply lookup_not_pointer in H. contradiction. Qed.
Lemma names_none : forall w g, both_unresolved w g = false -> unresolved_names w g = None.
Proof. intros w g H. destruct w, g; reflexivity || discriminate. Qed.
Lemma pointees_none : forall w g, both_pointers w g = false -> pointees w g = None.
Proof. intros w g H. destruct w, g; reflexivity || discriminate. Qed.
Lemma strip_none : forall a b, both_pointers a b = false -> strip a b = (a, b).
Proof. intros a b H. destruct a, b; reflexivity || discriminate. Qed.

Lemma unfold_eq : forall f a b, poison a = false -> poison b = false ->
  eq (S f) a b = if same a b then Done true else T f (fst (strip a b)) (snd (strip a b)).
Proof.
  intros f a b Pa Pb. cbn [types_are_equal]. destruct (same a b) eqn:S0; [reflexivity|]. rewrite Pa, Pb.
  destruct (both_pointers a b) eqn:Bp.
  - destruct a as [| | |a| | | | |]; try discriminate. destruct b as [| | |b| | | | |]; try discriminate.
    cbn [unresolved_names TypeEqModel.resolve pointees strip]. rewrite S0. unfold T. destruct (strip a b) as [w g]. reflexivity.
  - rewrite strip_none by exact Bp. cbn [fst snd]. unfold T. destruct (unresolved_names a b); [reflexivity|].
    destruct (resolve a) as [w|] eqn:Ra; [|reflexivity]. destruct (resolve b) as [g|] eqn:Rb; [|reflexivity].
    assert (Q : both_pointers w g = false).
    { destruct w as [| | |w| | | | |]; try reflexivity. destruct g as [| | |g| | | | |]; try reflexivity. rewrite (resolve_pointer a w Ra), (resolve_pointer b g Rb) in Bp. discriminate. }
    rewrite (pointees_none _ _ Q). unfold equal_behind. destruct (same w g); reflexivity.
Qed.

Lemma same_eq : forall a b, same a b = true -> a = b.
Proof. exact (proj1 Addr). Qed.

Lemma clean_poison : forall t, clean t -> poison t = false.
Proof. intros [] H; reflexivity || contradiction. Qed.
Lemma clean_strip : forall a b, clean a -> clean b -> clean (fst (strip a b)) /\ clean (snd (strip a b)).
Proof. induction a; intros b Ca Cb; destruct b; cbn [strip fst snd]; auto. Qed.
Lemma clean_resolve : forall t t', clean t -> resolve t = Some t' -> clean t'.
Proof. intros t t' C H. destruct t; cbn in H; try (injection H as <-; exact C). apply (Tab _ _ H). Qed.
Lemma clean_argument : forall t, clean t -> clean (resolve_argument t).
Proof. intros t C. unfold TypeEqModel.resolve_argument. destruct (resolve t) eqn:E; [eapply clean_resolve; eassumption|exact C]. Qed.
Lemma strip_done : forall a b, both_pointers (fst (strip a b)) (snd (strip a b)) = false.
Proof. induction a; intros b; destruct b; cbn [strip fst snd]; try reflexivity. apply IHa. Qed.

(** ** Symmetry *)
Lemma same_sym : forall a b, same a b = same b a.
Proof.
  intros a b. destruct (same a b) eqn:A; [pose proof (same_eq _ _ A); subst; congruence|]. destruct (same b a) eqn:B; [pose proof (same_eq _ _ B); subst; congruence|reflexivity].
Qed.
Lemma strip_sym : forall a b, strip b a = (snd (strip a b), fst (strip a b)).
Proof. induction a; intros b; destruct b; cbn [strip fst snd]; try reflexivity. apply IHa. Qed.
Lemma behind_sym : forall e a b, (forall x y, e x y = e y x) -> behind e a b = behind e b a.
Proof.
  intros e a b He. unfold equal_behind. rewrite (same_sym a b). destruct (same b a); [reflexivity|].
  destruct a as [i| |n|t|r l|t k|u tag sz al ms|tag|t i w], b as [i'| |n'|t'|r' l'|t' k'|u' tag' sz' al' ms'|tag'|t' i' w']; try reflexivity.
  - rewrite (Nat.eqb_sym (length l)). destruct (Nat.eqb _ _); [|reflexivity]. rewrite (He r r'). f_equal.
    revert l'. induction l as [|x l IH]; intros [|y l']; try reflexivity. cbn [arguments_equal]. rewrite (He (resolve_argument x)), IH. reflexivity.
  - rewrite (Z.eqb_sym k). rewrite (He t). reflexivity.
  - replace (Bool.eqb u u') with (Bool.eqb u' u) by (destruct u, u'; reflexivity). rewrite (match_sym tag). rewrite (Nat.eqb_sym (length ms)).
    destruct (Bool.eqb u' u); [|reflexivity]. destruct (names_match tag' tag); [|reflexivity]. destruct (Nat.eqb _ _); [|reflexivity].
    revert ms'. induction ms as [|((n & x) & o) ms IH]; intros [|((m & y) & p) ms']; try reflexivity. cbn [members_equal]. rewrite (match_sym n), (He x), (Z.eqb_sym o), IH. reflexivity.
  - rewrite match_sym. reflexivity.
  - rewrite (Z.eqb_sym i), (Z.eqb_sym w), (He t). reflexivity.
Qed.
Lemma eq_sym : forall f a b, eq f a b = eq f b a.
Proof.
  induction f as [|f IH]; intros a b; [reflexivity|].
  destruct (poison a) eqn:Pa; [cbn [types_are_equal]; rewrite (same_sym a b), Pa; destruct (same b a), (poison b); reflexivity|].
  destruct (poison b) eqn:Pb; [cbn [types_are_equal]; rewrite (same_sym a b), Pa, Pb; destruct (same b a); reflexivity|].
  rewrite !unfold_eq by assumption. rewrite (same_sym a b), (strip_sym a b). cbn [fst snd]. destruct (same b a); [reflexivity|].
  destruct (strip a b) as [w g]. cbn [fst snd]. unfold T.
  assert (N : unresolved_names w g = unresolved_names g w) by (destruct w, g; try reflexivity; cbn; rewrite match_sym; reflexivity).
  rewrite N. destruct (unresolved_names g w); [reflexivity|]. destruct (resolve w), (resolve g); try reflexivity. apply behind_sym, IH.
Qed.

(** ** Reflexivity, also for two copies of a type *)
Fixpoint depth (t : ty) : nat :=
  match t with
  | Pointer t | Array t _ | Bitfield t _ _ => S (depth t)
  | Function r a => S (Nat.max (depth r) (fold_right (fun t n => Nat.max (depth t) n) O a))
  | Compound _ _ _ _ ms => S (fold_right (fun m n => Nat.max (depth (snd (fst m))) n) O ms)
  | _ => O
  end.
Lemma strip_refl : forall a, exists t, strip a a = (t, t) /\ (depth t <= depth a)%nat /\ (clean a -> clean t) /\ match t with Pointer _ => False | _ => True end.
Proof.
  induction a; try (eexists; split; [reflexivity|]; split; [lia|]; split; [auto|exact I]).
  destruct IHa as (t & E & D & C & N). exists t. split; [exact E|]. split; [cbn; lia|]. split; [exact C|exact N].
Qed.

Lemma eq_refl_copy : forall f t, clean t -> (depth t < f)%nat -> eq f t t = Done true.
Proof.
  induction f as [|f IH]; intros a C D; [lia|]. rewrite unfold_eq by (apply clean_poison; exact C). destruct (same a a); [reflexivity|].
  destruct (strip_refl a) as (t & E & Dt & Ct & Nt). rewrite E. cbn [fst snd]. specialize (Ct C). clear E C. unfold T.
  assert (Nn : unresolved_names t t = None \/ unresolved_names t t = Some true) by (destruct t; auto; right; cbn; rewrite match_refl; reflexivity).
  destruct Nn as [Nn|Nn]; rewrite Nn; [|reflexivity].
  destruct t as [i| |n|t|r l|t k|u tag sz al ms|tag|t i w]; cbn [TypeEqModel.resolve]; try contradiction; try (unfold equal_behind; destruct (same _ _) eqn:Sm; [reflexivity|]).
  - destruct Addr as (_ & B & _). rewrite B in Sm. discriminate.
  - discriminate Nn.
  - rewrite Nat.eqb_refl. cbn [clean depth] in *. destruct Ct as (Cr & Cl). rewrite IH by (auto; lia). cbn [obind_if obind].
    assert (Dl : (fold_right (fun t n => Nat.max (depth t) n) O l < f)%nat) by lia. clear Dt Sm D Nn.
    induction l as [|x l IHl]; [reflexivity|]. cbn [fold_right] in Cl, Dl. destruct Cl as (Cx & Cl). cbn [arguments_equal].
    assert (Q : eq f (resolve_argument x) (resolve_argument x) = Done true).
    { unfold TypeEqModel.resolve_argument. destruct (resolve x) as [x'|] eqn:Rx; [|apply IH; [exact Cx|lia]].
      assert (Hx : (depth x < f)%nat) by lia. destruct x; cbn in Rx; try (injection Rx as <-; apply IH; [exact Cx|exact Hx]).
      destruct f; [lia|]. cbn [types_are_equal]. destruct Addr as (_ & _ & _ & B). rewrite (B _ _ Rx). reflexivity. }
    rewrite Q. cbn [obind_if obind]. apply IHl; [exact Cl|lia].
  - rewrite Z.eqb_refl. apply IH; [exact Ct|cbn in *; lia].
  - rewrite Bool.eqb_reflx, match_refl, Nat.eqb_refl. cbn [clean depth] in *.
    assert (Dl : (fold_right (fun m n => Nat.max (depth (snd (fst m))) n) O ms < f)%nat) by lia. clear Dt Sm D Nn.
    induction ms as [|((n & x) & o) ms IHl]; [reflexivity|]. cbn [fold_right fst snd] in Ct, Dl. destruct Ct as (Cx & Cl). cbn [members_equal].
    rewrite match_refl, Z.eqb_refl, IH by (auto; lia). cbn [obind_if obind]. apply IHl; [exact Cl|lia].
  - rewrite match_refl. reflexivity.
  - rewrite !Z.eqb_refl. apply IH; [exact Ct|cbn in *; lia].
Qed.

(** ** The relation computed, as a family indexed by the height of the derivation *)
Definition shape (P : ty -> ty -> Prop) (a b : ty) : Prop :=
  match a, b with
  | Basic i, Basic j => i = j
  | Pointer a, Pointer b => P a b
  | Function r l, Function r' l' => P r r' /\ Forall2 (fun x y => P (resolve_argument x) (resolve_argument y)) l l'
  | Array t n, Array t' n' => n = n' /\ P t t'
  | Compound u t _ _ ms, Compound u' t' _ _ ms' => u = u' /\ t = t' /\ Forall2 (fun m m' => fst (fst m) = fst (fst m') /\ snd m = snd m' /\ P (snd (fst m)) (snd (fst m'))) ms ms'
  | Enum t, Enum t' => t = t'
  | Bitfield b i w, Bitfield b' i' w' => i = i' /\ w = w' /\ P b b'
  | _, _ => False
  end.
Fixpoint E (n : nat) (a b : ty) : Prop :=
  match n with
  | O => False
  | S n => a = b \/ (exists x, a = Unresolved x /\ b = Unresolved x) \/
      (both_unresolved a b = false /\ exists a' b', resolve a = Some a' /\ resolve b = Some b' /\ (a' = b' \/ shape (E n) a' b'))
  end.

Lemma shape_mono : forall (P Q : ty -> ty -> Prop) a b, (forall x y, P x y -> Q x y) -> shape P a b -> shape Q a b.
Proof.
  intros P Q a b H. assert (F : forall A (R S : A -> A -> Prop) l l', (forall x y, R x y -> S x y) -> Forall2 R l l' -> Forall2 S l l') by (intros A R S0 l l' K; induction 1; constructor; auto).
  destruct a, b; cbn; auto.
  - intros (A & B). split; [auto|]. eapply F; [|exact B]. intros; apply H; assumption.
  - intros (A & B). auto.
  - intros (A & B & C). split; [exact A|]. split; [exact B|]. eapply F; [|exact C]. cbn. intros x y (K1 & K2 & K3). auto.
  - intros (A & B & C). auto.
Qed.
Lemma E_S : forall n a b, E n a b -> E (S n) a b.
Proof.
  induction n as [|n IH]; intros a b H; [destruct H|]. cbn [E] in H |- *. destruct H as [H|[H|(U & a' & b' & A & B & H)]]; [auto|auto|].
  right. right. split; [exact U|]. exists a', b'. split; [exact A|]. split; [exact B|]. destruct H as [H|H]; [auto|]. right. eapply shape_mono; [|exact H]. exact IH.
Qed.
Lemma E_mono : forall n m a b, (n <= m)%nat -> E n a b -> E m a b.
Proof. intros n m a b L. induction L; intro H; [exact H|]. apply E_S, IHL, H. Qed.

Lemma E_shape : forall n a b, resolve a = Some a -> resolve b = Some b -> shape (E n) a b -> E (S n) a b.
Proof.
  intros n a b A B H. cbn [E]. right. right. split; [|exists a, b; auto]. destruct a, b; try reflexivity. cbn in H. contradiction.
Qed.

Lemma forall2_ex : forall A (P : nat -> A -> A -> Prop) l l', (forall n m x y, (n <= m)%nat -> P n x y -> P m x y) -> Forall2 (fun x y => exists n, P n x y) l l' -> exists n, Forall2 (P n) l l'.
Proof.
  intros A P l l' M. induction 1 as [|x y l l' (n & H) _ (m & IH)]; [exists O; constructor|]. exists (Nat.max n m). constructor; [eapply M; [|exact H]; lia|].
  clear - M IH. induction IH; constructor; [eapply M; [|eassumption]; lia|assumption].
Qed.

Lemma arguments_inv : forall e l l', arguments_equal lookup e l l' = Done true -> Forall2 (fun x y => e (resolve_argument x) (resolve_argument y) = Done true) l l'.
Proof.
  intros e. induction l as [|x l IH]; intros [|y l'] H; cbn [arguments_equal] in H; try discriminate; [constructor|]. apply if_inv in H as (A & B). constructor; auto.
Qed.
Lemma members_inv : forall e l l', members_equal e l l' = Done true -> Forall2 (fun m m' => fst (fst m) = fst (fst m') /\ snd m = snd m' /\ e (snd (fst m)) (snd (fst m')) = Done true) l l'.
Proof.
  intros e. induction l as [|((n & x) & o) l IH]; intros [|((m & y) & p) l'] H; cbn [members_equal] in H; try discriminate; [constructor|].
  destruct (names_match n m) eqn:N; [|discriminate]. apply if_inv in H as (A & B). destruct (o =? p) eqn:O; [|discriminate]. constructor; [|auto]. cbn.
  split; [apply match_eq; exact N|]. split; [lia|exact A].
Qed.

(** ** The comparison computes the relation *)
Lemma eq_E : forall f a b, clean a -> clean b -> eq f a b = Done true -> exists n, E n a b.
Proof.
  induction f as [|f IH]; intros a b Ca Cb H; [discriminate|].
  rewrite unfold_eq in H by (apply clean_poison; assumption). destruct (same a b) eqn:Sm; [exists 1%nat; left; apply same_eq; exact Sm|]. clear Sm.
  assert (B : forall w g, clean w -> clean g -> both_pointers w g = false -> behind (eq f) w g = Done true -> w = g \/ exists n, shape (E n) w g).
  { intros w g Cw Cg Bp Hb. unfold equal_behind in Hb. destruct (same w g) eqn:Sm; [left; apply same_eq; exact Sm|]. right.
    destruct w as [i| |n|t|r l|t k|u tag sz al ms|tag|t i w], g as [i'| |n'|t'|r' l'|t' k'|u' tag' sz' al' ms'|tag'|t' i' w']; try discriminate.
    - destruct (Nat.eqb _ _); [|discriminate]. apply if_inv in Hb as (H1 & H2). cbn [clean] in Cw, Cg. destruct Cw as (Cr & Cl), Cg as (Cr' & Cl').
      destruct (IH r r' Cr Cr' H1) as (n & N). apply arguments_inv in H2.
      destruct (forall2_ex ty (fun n x y => E n (resolve_argument x) (resolve_argument y)) l l') as (m & M).
      + intros n0 m x y L. apply E_mono; exact L.
      + clear - H2 Cl Cl' IH Tab. induction H2 as [|x y l l' A _ IHl]; [constructor|]. cbn in Cl, Cl'. destruct Cl as (Cx & Cl), Cl' as (Cy & Cl'). constructor; [|apply IHl; assumption].
        apply IH; [apply clean_argument; exact Cx|apply clean_argument; exact Cy|exact A].
      + exists (Nat.max n m). cbn. split; [eapply E_mono; [|exact N]; lia|]. clear - M. induction M; constructor; [eapply E_mono; [|eassumption]; lia|assumption].
    - destruct (k =? k') eqn:K; [|discriminate]. destruct (IH t t' Cw Cg Hb) as (n & N). exists n. cbn. split; [lia|exact N].
    - destruct (Bool.eqb u u') eqn:U; [|discriminate]. destruct (names_match tag tag') eqn:Tg; [|discriminate]. destruct (Nat.eqb _ _); [|discriminate]. apply members_inv in Hb.
      destruct (forall2_ex (name * ty * Z) (fun n m m' => fst (fst m) = fst (fst m') /\ snd m = snd m' /\ E n (snd (fst m)) (snd (fst m'))) ms ms') as (m & M).
      + intros n0 m x y L (K1 & K2 & K3). split; [exact K1|]. split; [exact K2|]. eapply E_mono; eassumption.
      + cbn [clean] in Cw, Cg. clear - Hb Cw Cg IH. induction Hb as [|x y l l' (K1 & K2 & K3) _ IHl]; [constructor|]. cbn [fold_right] in Cw, Cg. destruct Cw as (Cx & Cl), Cg as (Cy & Cl'). constructor; [|apply IHl; assumption].
        destruct (IH _ _ Cx Cy K3) as (n & N). exists n. auto.
      + exists m. cbn. split; [apply Bool.eqb_prop; exact U|]. split; [apply match_eq; exact Tg|exact M].
    - exists O. cbn. injection Hb as Hb. apply match_eq. exact Hb.
    - destruct (i =? i') eqn:I0; [|discriminate]. destruct (w =? w') eqn:W0; [|discriminate]. destruct (IH t t' Cw Cg Hb) as (n & N). exists n. cbn. split; [lia|]. split; [lia|exact N]. }
  assert (G : forall w g, clean w -> clean g -> both_pointers w g = false -> T f w g = Done true -> exists n, E n w g).
  { intros w g Cw Cg Bp Ht. unfold T in Ht. destruct (both_unresolved w g) eqn:Bu.
    - destruct w, g; try discriminate. cbn in Ht. injection Ht as Ht. apply match_eq in Ht. subst. exists 1%nat. left. reflexivity.
    - rewrite (names_none _ _ Bu) in Ht. rename Ht into Q. destruct (resolve w) as [w'|] eqn:Rw; [|discriminate]. destruct (resolve g) as [g'|] eqn:Rg; [|discriminate].
      destruct (B w' g') as [->|(n & N)].
      + exact (clean_resolve _ _ Cw Rw).
      + exact (clean_resolve _ _ Cg Rg).
      + destruct w' as [| | |w'| | | | |], g' as [| | |g'| | | | |]; try reflexivity. rewrite (resolve_pointer _ _ Rw), (resolve_pointer _ _ Rg) in Bp. discriminate.
      + exact Q.
      + exists 1%nat. right. right. split; [exact Bu|]. exists g', g'. auto.
      + exists (S n). right. right. split; [exact Bu|]. exists w', g'. auto. }
  assert (St : forall a b, clean a -> clean b -> T f (fst (strip a b)) (snd (strip a b)) = Done true -> exists n, E n a b).
  { clear a b Ca Cb H. induction a; intros b Ca Cb H; try (apply G; [exact Ca|exact Cb|destruct b; reflexivity|]; rewrite strip_none in H by (destruct b; reflexivity); exact H).
    destruct b; try (apply G; [exact Ca|exact Cb|reflexivity|]; rewrite strip_none in H by reflexivity; exact H).
    destruct (IHa b Ca Cb H) as (n & N). exists (S n). apply E_shape; [reflexivity|reflexivity|exact N]. }
  apply St; assumption.
Qed.

Lemma arguments_done : forall e l l', Forall2 (fun x y => e (resolve_argument x) (resolve_argument y) = Done true) l l' -> arguments_equal lookup e l l' = Done true.
Proof. intros e l l'. induction 1 as [|x y l l' A _ IH]; [reflexivity|]. cbn [arguments_equal]. rewrite A. exact IH. Qed.
Lemma members_done : forall e l l', Forall2 (fun m m' => fst (fst m) = fst (fst m') /\ snd m = snd m' /\ e (snd (fst m)) (snd (fst m')) = Done true) l l' -> members_equal e l l' = Done true.
Proof.
  intros e l l'. induction 1 as [|((n & x) & o) ((m & y) & p) l l' (A & B & C) _ IH]; [reflexivity|]. cbn in A, B, C. subst. cbn [members_equal].
  rewrite match_refl, C, Z.eqb_refl. exact IH.
Qed.
Lemma forall2_length : forall A (P : A -> A -> Prop) l l', Forall2 P l l' -> length l = length l'.
Proof. induction 1; cbn; congruence. Qed.

(** a bound on the fuel for all pairs of two lists *)
Lemma forall2_fuel : forall A (P : nat -> A -> A -> Prop) l l', Forall2 (fun x y => exists k, forall f, (k <= f)%nat -> P f x y) l l' -> exists k, forall f, (k <= f)%nat -> Forall2 (P f) l l'.
Proof.
  intros A P l l'. induction 1 as [|x y l l' (k & H) _ (m & IH)]; [exists O; constructor|]. exists (Nat.max k m). intros f L. constructor; [apply H; lia|apply IH; lia].
Qed.

Lemma E_eq : forall n a b, clean a -> clean b -> E n a b -> exists k, forall f, (k <= f)%nat -> eq f a b = Done true.
Proof.
  induction n as [|n IH]; intros a b Ca Cb H; [destruct H|].
  assert (Rf : forall t, clean t -> exists k, forall f, (k <= f)%nat -> eq f t t = Done true) by (intros t C; exists (S (depth t)); intros f L; apply eq_refl_copy; [exact C|lia]).
  cbn [E] in H. destruct H as [->|[(x & -> & ->)|(U & a' & b' & A & B & H)]]; [apply Rf; exact Cb|apply (Rf (Unresolved x)); exact I|].
  assert (Ca' : clean a') by exact (clean_resolve _ _ Ca A). assert (Cb' : clean b') by exact (clean_resolve _ _ Cb B).
  destruct (both_pointers a' b') eqn:Bp.
  - destruct a' as [| | |a'| | | | |], b' as [| | |b'| | | | |]; try discriminate. rewrite (resolve_pointer _ _ A), (resolve_pointer _ _ B).
    destruct H as [Eq|H]; [assert (a' = b') by congruence; subst; apply (Rf (Pointer b')); exact Cb'|].
    cbn [shape] in H. destruct (IH a' b' Ca' Cb' H) as (k & K).
    destruct (same a' b') eqn:Sm; [pose proof (same_eq _ _ Sm); subst; apply (Rf (Pointer b')); exact Cb'|].
    exists (S k). intros f L. destruct f as [|f]; [lia|]. rewrite unfold_eq by reflexivity. cbn [strip]. destruct (same (Pointer a') (Pointer b')); [reflexivity|].
    specialize (K (S f)). rewrite unfold_eq in K by (apply clean_poison; assumption). rewrite Sm in K. apply K. lia.
  - assert (Bn : both_pointers a b = false) by (destruct a as [| | |a| | | | |], b as [| | |b| | | | |]; try reflexivity; cbn in A, B; assert (Pointer a = a') by congruence; assert (Pointer b = b') by congruence; subst; discriminate).
    assert (G : exists k, forall f, (k <= f)%nat -> behind (eq f) a' b' = Done true).
    { destruct H as [->|H].
      - destruct (Rf b' Cb') as (k & K). exists k. intros f L. specialize (K (S f)). rewrite unfold_eq in K by (apply clean_poison; exact Cb').
        rewrite strip_none in K by exact Bp. cbn [fst snd] in K. unfold equal_behind. destruct (same b' b') eqn:Sm; [reflexivity|].
        assert (Q : T f b' b' = behind (eq f) b' b') by (unfold T; destruct b'; try reflexivity; destruct b; cbn in B; try discriminate; apply lookup_not_pointer in B; contradiction).
        rewrite Q in K. unfold equal_behind in K. rewrite Sm in K. apply K. lia.
      - unfold equal_behind. destruct (same a' b') eqn:Sm; [exists O; reflexivity|].
        destruct a' as [i| |x|t|r l|t k|u tag sz al ms|tag|t i w], b' as [i'| |x'|t'|r' l'|t' k'|u' tag' sz' al' ms'|tag'|t' i' w']; cbn [shape] in H; try contradiction; try discriminate.
        + subst i'. destruct Addr as (_ & Q & _). rewrite Q in Sm. discriminate.
        + destruct H as (H1 & H2). cbn [clean] in Ca', Cb'. destruct Ca' as (Cr & Cl), Cb' as (Cr' & Cl'). rewrite (forall2_length _ _ _ _ H2), Nat.eqb_refl.
          destruct (IH _ _ Cr Cr' H1) as (k1 & K1).
          destruct (forall2_fuel ty (fun f x y => eq f (resolve_argument x) (resolve_argument y) = Done true) l l') as (k2 & K2).
          { clear - H2 Cl Cl' IH Tab. induction H2 as [|x y l l' A _ IHl]; [constructor|]. cbn [fold_right] in Cl, Cl'. destruct Cl as (Cx & Cl), Cl' as (Cy & Cl'). constructor; [|apply IHl; assumption].
            apply IH; [apply clean_argument; exact Cx|apply clean_argument; exact Cy|exact A]. }
          exists (Nat.max k1 k2). intros f L. rewrite K1 by lia. cbn [obind_if obind]. apply arguments_done, K2. lia.
        + destruct H as (-> & H). rewrite Z.eqb_refl. destruct (IH t t' Ca' Cb' H) as (k1 & K1). exists k1. exact K1.
        + destruct H as (-> & -> & H). rewrite Bool.eqb_reflx, match_refl, (forall2_length _ _ _ _ H), Nat.eqb_refl. cbn [clean] in Ca', Cb'.
          destruct (forall2_fuel (name * ty * Z) (fun f m m' => fst (fst m) = fst (fst m') /\ snd m = snd m' /\ eq f (snd (fst m)) (snd (fst m')) = Done true) ms ms') as (k2 & K2).
          { clear - H Ca' Cb' IH. induction H as [|x y l l' (A1 & A2 & A3) _ IHl]; [constructor|]. cbn [fold_right] in Ca', Cb'. destruct Ca' as (Cx & Cl), Cb' as (Cy & Cl'). constructor; [|apply IHl; assumption].
            destruct (IH _ _ Cx Cy A3) as (k & K). exists k. auto. }
          exists k2. intros f L. apply members_done, K2, L.
        + subst. rewrite match_refl. exists O. reflexivity.
        + destruct H as (-> & -> & H). rewrite !Z.eqb_refl. destruct (IH t t' Ca' Cb' H) as (k1 & K1). exists k1. exact K1. }
    destruct G as (k & K). exists (S k). intros f L. destruct f as [|f]; [lia|]. rewrite unfold_eq by (apply clean_poison; assumption). destruct (same a b); [reflexivity|].
    rewrite strip_none by exact Bn. cbn [fst snd].
    assert (Q : T f a b = behind (eq f) a' b') by (unfold T; rewrite (names_none _ _ U), A, B; reflexivity).
    rewrite Q. apply K. lia.
Qed.

(** ** Transitivity *)
Lemma E_trans : forall n a b m c, E n a b -> E m b c -> E (n + m) a c.
Proof.
  induction n as [|n IH]; intros a b m c H1 H2; [destruct H1|].
  cbn [E] in H1. destruct H1 as [->|[(x & -> & ->)|(U & a' & b' & A & B & H1)]]; [eapply E_mono; [|exact H2]; lia|eapply E_mono; [|exact H2]; lia|].
  destruct m as [|m]; [destruct H2|]. cbn [E] in H2. destruct H2 as [->|[(x & -> & ->)|(U' & b'' & c' & B' & C & H2)]].
  - eapply (E_mono (S n)); [lia|]. cbn [E]. right. right. split; [exact U|]. exists a', b'. auto.
  - eapply (E_mono (S n)); [lia|]. cbn [E]. right. right. split; [exact U|]. exists a', b'. auto.
  - assert (b'' = b') by congruence. subst b''.
    assert (S1 : a' = c' \/ shape (E (n + S m)) a' c').
    { destruct H1 as [->|H1]; [destruct H2 as [->|H2]; [auto|right; eapply shape_mono; [|exact H2]; intros x y; apply E_mono; lia]|].
      destruct H2 as [<-|H2]; [right; eapply shape_mono; [|exact H1]; intros x y; apply E_mono; lia|]. right.
      assert (K : forall x y z, E n x y -> E m y z -> E (n + S m) x z) by (intros x y z P Q; eapply E_mono; [|eapply IH; eassumption]; lia).
      clear - K H1 H2.
      destruct a' as [i| |x|t|r l|t k|u tag sz al ms|tag|t i w], b' as [i'| |x'|t'|r' l'|t' k'|u' tag' sz' al' ms'|tag'|t' i' w']; cbn [shape] in H1; try contradiction;
      destruct c' as [i2| |x2|t2|r2 l2|t2 k2|u2 tag2 sz2 al2 ms2|tag2|t2 i2 w2]; cbn [shape] in H2 |- *; try contradiction.
      - congruence.
      - eapply K; eassumption.
      - destruct H1 as (P1 & P2), H2 as (Q1 & Q2). split; [eapply K; eassumption|]. clear - K P2 Q2. revert l2 Q2. induction P2; intros l2 Q2; inversion Q2; subst; constructor; [eapply K; eassumption|auto].
      - destruct H1 as (P1 & P2), H2 as (Q1 & Q2). split; [congruence|eapply K; eassumption].
      - destruct H1 as (P1 & P2 & P3), H2 as (Q1 & Q2 & Q3). split; [congruence|]. split; [congruence|]. clear - K P3 Q3. revert ms2 Q3. induction P3 as [|x y l l' (A1 & A2 & A3) P3 IHP]; intros l2 Q2; inversion Q2 as [|? z ? l3 (B1 & B2 & B3) Q4]; subst; constructor; [|auto].
        split; [congruence|]. split; [congruence|eapply K; eassumption].
      - congruence.
      - destruct H1 as (P1 & P2 & P3), H2 as (Q1 & Q2 & Q3). split; [congruence|]. split; [congruence|eapply K; eassumption]. }
    destruct (both_unresolved a c) eqn:Uac.
    + destruct a as [| |x| | | | | |], c as [| |y| | | | | |]; try discriminate. cbn in A, C. destruct (Tab _ _ A) as (_ & Ta), (Tab _ _ C) as (_ & Tc).
      assert (x = y); [|subst; left; reflexivity]. destruct S1 as [<-|S1]; [destruct a'; try contradiction; congruence|].
      destruct a', c'; cbn in S1; try contradiction; intuition congruence.
    + cbn [Nat.add E]. right. right. split; [exact Uac|]. exists a', c'. auto.
Qed.

Lemma eq_trans : forall f f' a b c, clean a -> clean b -> clean c -> eq f a b = Done true -> eq f' b c = Done true -> exists k, forall f, (k <= f)%nat -> eq f a c = Done true.
Proof.
  intros f f' a b c Ca Cb Cc H1 H2. destruct (eq_E f a b Ca Cb H1) as (n & N), (eq_E f' b c Cb Cc H2) as (m & M). eapply E_eq; [exact Ca|exact Cc|eapply E_trans; eassumption].
Qed.

(** ** The relation is [alike] *)
Lemma alike_refl : forall n t, (depth t <= n)%nat -> clean t -> alike lookup t t.
Proof.
  induction n as [|n IH]; intros t D C; (destruct t as [i| |x|t|r l|t k|u tag sz al ms|tag|t i w]; cbn [depth clean] in *; try lia; try contradiction; try (constructor; fail); try (constructor; apply IH; [lia|exact C])).
  - destruct C as (Cr & Cl). constructor; [apply IH; [lia|exact Cr]|]. assert (L : (fold_right (fun t n => Nat.max (depth t) n) O l <= n)%nat) by lia. clear D.
    induction l as [|x l IHl]; [constructor|]. cbn [fold_right] in Cl, L. destruct Cl as (Cx & Cl). constructor; [apply IH; [lia|exact Cx]|apply IHl; [exact Cl|lia]].
  - constructor. assert (L : (fold_right (fun m n => Nat.max (depth (snd (fst m))) n) O ms <= n)%nat) by lia. clear D.
    induction ms as [|x ms IHl]; [constructor|]. cbn [fold_right] in C, L. destruct C as (Cx & Cl). constructor; [|apply IHl; [exact Cl|lia]]. split; [reflexivity|]. split; [reflexivity|apply IH; [lia|exact Cx]].
Qed.

Lemma alike_resolve : forall a b a' b', resolve a = Some a' -> resolve b = Some b' -> alike lookup a' b' -> alike lookup a b.
Proof.
  intros a b a' b' A B H.
  assert (L : alike lookup a b') by (destruct a; cbn in A; try (injection A as <-; exact H); eapply alike_left; eassumption).
  destruct b; cbn in B; try (injection B as <-; exact L). eapply alike_right; eassumption.
Qed.
Lemma argument_alike : forall x y, alike lookup (resolve_argument x) (resolve_argument y) -> alike lookup x y.
Proof.
  intros x y H. unfold TypeEqModel.resolve_argument in H.
  assert (L : alike lookup x (match resolve y with Some t => t | None => y end)) by (destruct x; cbn in H; try exact H; destruct (lookup n) eqn:Ln; [eapply alike_left; eassumption|exact H]).
  destruct y; cbn in L; try exact L. destruct (lookup n) eqn:Ln; [eapply alike_right; eassumption|exact L].
Qed.

Lemma E_alike : forall n a b, clean a -> clean b -> E n a b -> alike lookup a b.
Proof.
  induction n as [|n IH]; intros a b Ca Cb H; [destruct H|]. cbn [E] in H. destruct H as [->|[(x & -> & ->)|(U & a' & b' & A & B & H)]]; [eapply alike_refl; [reflexivity|exact Cb]|constructor|].
  assert (Ca' : clean a') by exact (clean_resolve _ _ Ca A). assert (Cb' : clean b') by exact (clean_resolve _ _ Cb B).
  eapply alike_resolve; [exact A|exact B|]. destruct H as [->|H]; [eapply alike_refl; [reflexivity|exact Cb']|].
  destruct a' as [i| |x|t|r l|t k|u tag sz al ms|tag|t i w], b' as [i'| |x'|t'|r' l'|t' k'|u' tag' sz' al' ms'|tag'|t' i' w']; cbn [shape] in H; try contradiction; cbn [clean] in Ca', Cb'.
  - subst. constructor.
  - constructor. apply IH; assumption.
  - destruct H as (H1 & H2), Ca' as (Cr & Cl), Cb' as (Cr' & Cl'). constructor; [apply IH; assumption|].
    clear - H2 Cl Cl' IH Tab. induction H2 as [|x y l l' A _ IHl]; [constructor|]. cbn [fold_right] in Cl, Cl'. destruct Cl as (Cx & Cl), Cl' as (Cy & Cl'). constructor; [|apply IHl; assumption].
    apply argument_alike. apply IH; [apply clean_argument; exact Cx|apply clean_argument; exact Cy|exact A].
  - destruct H as (-> & H). constructor. apply IH; assumption.
  - destruct H as (-> & -> & H). constructor. clear - H Ca' Cb' IH. induction H as [|x y l l' (A1 & A2 & A3) _ IHl]; [constructor|]. cbn [fold_right] in Ca', Cb'. destruct Ca' as (Cx & Cl), Cb' as (Cy & Cl'). constructor; [|apply IHl; assumption].
    split; [exact A1|]. split; [exact A2|]. apply IH; assumption.
  - subst. constructor.
  - destruct H as (-> & -> & H). constructor. apply IH; assumption.
Qed.

Lemma E_sym : forall n a b, E n a b -> E n b a.
Proof.
  induction n as [|n IH]; intros a b H; [destruct H|]. cbn [E] in *. destruct H as [->|[(x & -> & ->)|(U & a' & b' & A & B & H)]]; [auto|left; reflexivity|].
  right. right. split; [destruct a, b; try reflexivity; discriminate|]. exists b', a'. split; [exact B|]. split; [exact A|]. destruct H as [->|H]; [auto|]. right.
  clear A B U. destruct a' as [i| |x|t|r l|t k|u tag sz al ms|tag|t i w], b' as [i'| |x'|t'|r' l'|t' k'|u' tag' sz' al' ms'|tag'|t' i' w']; cbn [shape] in H |- *; try contradiction; auto.
  - destruct H as (H1 & H2). split; [auto|]. clear - IH H2. induction H2; constructor; auto.
  - destruct H as (H1 & H2). split; [auto|auto].
  - destruct H as (H1 & H2 & H3). split; [auto|]. split; [auto|]. clear - IH H3. induction H3 as [|x y l l' (A1 & A2 & A3) _ IHl]; constructor; auto.
  - destruct H as (H1 & H2 & H3). auto.
Qed.

Lemma E_named : forall n t x b, lookup x = Some t -> E n t b -> exists m, E m (Unresolved x) b.
Proof.
  intros n t x b L H. assert (Q : E 1 (Unresolved x) t).
  { right. right. split; [destruct (Tab _ _ L) as (_ & K); destruct t; try contradiction; reflexivity|]. exists t, t. split; [exact L|]. split; [|auto].
    destruct (Tab _ _ L) as (_ & K). destruct t; try contradiction; reflexivity. }
  exists (1 + n)%nat. eapply E_trans; eassumption.
Qed.

Lemma E_argument : forall n x y, E n x y -> exists m, E m (resolve_argument x) (resolve_argument y).
Proof.
  intros n x y H.
  assert (Q : forall z, exists m, E m z (resolve_argument z)).
  { intro z. unfold TypeEqModel.resolve_argument. destruct (resolve z) as [z'|] eqn:R; [|exists 1%nat; left; reflexivity]. destruct z; cbn in R; try (injection R as <-; exists 1%nat; left; reflexivity).
    eapply (E_named 1); [exact R|left; reflexivity]. }
  destruct (Q x) as (m1 & M1), (Q y) as (m2 & M2). apply E_sym in M1. exists (m1 + n + m2)%nat. eapply E_trans; [eapply E_trans|]; eassumption.
Qed.

Fixpoint alike_E (a b : ty) (H : alike lookup a b) {struct H} : exists n, E n a b.
Proof.
  destruct H as [i|x|x t b L H|x t a L H|a b H|r r' l l' H HF|a b k H|u tag s al s' al' ms ms' HF|tag|a b i w H].
  - exists 1%nat. left. reflexivity.
  - exists 1%nat. left. reflexivity.
  - destruct (alike_E _ _ H) as (n & N). eapply E_named; eassumption.
  - destruct (alike_E _ _ H) as (n & N). apply E_sym in N. destruct (E_named _ _ _ _ L N) as (m & M). exists m. apply E_sym. exact M.
  - destruct (alike_E _ _ H) as (n & N). exists (S n). apply E_shape; [reflexivity|reflexivity|exact N].
  - destruct (alike_E _ _ H) as (n & N).
    assert (Q : Forall2 (fun x y => exists n, E n (resolve_argument x) (resolve_argument y)) l l').
    { clear - HF alike_E Tab. induction HF as [|x y l l' K _ IH]; [constructor|]. constructor; [|exact IH]. destruct (alike_E _ _ K) as (n & N). eapply E_argument; exact N. }
    apply forall2_ex in Q as (m & M); [|intros; eapply E_mono; eassumption].
    exists (S (Nat.max n m)). apply E_shape; [reflexivity|reflexivity|]. cbn [shape]. split; [eapply E_mono; [|exact N]; lia|]. clear - M. induction M; constructor; [eapply E_mono; [|eassumption]; lia|assumption].
  - destruct (alike_E _ _ H) as (n & N). exists (S n). apply E_shape; [reflexivity|reflexivity|]. split; [reflexivity|exact N].
  - assert (Q : Forall2 (fun m m' => exists n, (fun n m m' => fst (fst m) = fst (fst m') /\ snd m = snd m' /\ E n (snd (fst m)) (snd (fst m'))) n m m') ms ms').
    { clear - HF alike_E. induction HF as [|x y l l' (A1 & A2 & K) _ IH]; [constructor|]. constructor; [|exact IH]. destruct (alike_E _ _ K) as (n & N). exists n. auto. }
    apply forall2_ex in Q as (m & M); [|intros n0 m0 x y Lnm (K1 & K2 & K3); split; [exact K1|]; split; [exact K2|]; eapply E_mono; eassumption].
    exists (S m). apply E_shape; [reflexivity|reflexivity|]. split; [reflexivity|]. split; [reflexivity|exact M].
  - exists 1%nat. left. reflexivity.
  - destruct (alike_E _ _ H) as (n & N). exists (S n). apply E_shape; [reflexivity|reflexivity|]. split; [reflexivity|]. split; [reflexivity|exact N].
Qed.

Lemma eq_alike : forall a b, clean a -> clean b ->
  (alike lookup a b -> exists k, forall f, (k <= f)%nat -> eq f a b = Done true) /\ (forall f, eq f a b = Done true -> alike lookup a b).
Proof.
  intros a b Ca Cb. split.
  - intro H. destruct (alike_E a b H) as (n & N). eapply E_eq; eassumption.
  - intros f H. destruct (eq_E f a b Ca Cb H) as (n & N). eapply E_alike; eassumption.
Qed.

(** ** Layout *)
Section Layout.
Variable basic : nat -> Z * Z.
Variable rule : bool -> list (Z * Z * Z) -> Z * Z.
Hypothesis Nat_tab : natural_tables lookup basic rule.
Notation layout := (layout lookup basic).
Notation natural := (natural lookup basic rule).
Lemma layout_resolve : forall a a', resolve a = Some a' -> layout a = layout a'.
Proof. intros a a' H. destruct a; cbn in H; try congruence. destruct (Tab _ _ H) as (_ & Q). cbn. rewrite H. destruct a'; try contradiction; reflexivity. Qed.
Lemma natural_resolve : forall a a', natural a -> resolve a = Some a' -> natural a'.
Proof. intros a a' N H. destruct a; cbn in H; try (injection H as <-; exact N). apply (Nat_tab _ _ H). Qed.
Lemma E_layout : forall n a b, natural a -> natural b -> E n a b -> layout a = layout b.
Proof.
  induction n as [|n IH]; intros a b Na Nb H; [destruct H|]. cbn [E] in H. destruct H as [->|[(x & -> & ->)|(U & a' & b' & A & B & H)]]; [reflexivity|reflexivity|].
  rewrite (layout_resolve _ _ A), (layout_resolve _ _ B). assert (Na' : natural a') by exact (natural_resolve _ _ Na A). assert (Nb' : natural b') by exact (natural_resolve _ _ Nb B).
  destruct H as [->|H]; [reflexivity|].
  destruct a' as [i| |x|t|r l|t k|u tag sz al ms|tag|t i w], b' as [i'| |x'|t'|r' l'|t' k'|u' tag' sz' al' ms'|tag'|t' i' w']; cbn [shape] in H; try contradiction; cbn [TypeEqSpec.layout]; try reflexivity.
  - congruence.
  - destruct H as (-> & H). rewrite (IH t t' Na' Nb' H). reflexivity.
  - destruct H as (-> & -> & H). cbn [TypeEqSpec.natural] in Na', Nb'. destruct Na' as (-> & Na'), Nb' as (-> & Nb'). f_equal.
    clear - H IH Na' Nb'. induction H as [|x y l l' (A1 & A2 & A3) _ IHl]; [reflexivity|]. cbn [fold_right] in Na', Nb'. destruct Na' as (Nx & Na'), Nb' as (Ny & Nb').
    cbn [map]. rewrite (IH _ _ Nx Ny A3), A2, IHl by assumption. reflexivity.
  - destruct H as (_ & _ & H). apply (IH t t' Na' Nb' H).
Qed.
Lemma eq_layout : forall f a b, clean a -> clean b -> natural a -> natural b -> eq f a b = Done true -> layout a = layout b.
Proof. intros f a b Ca Cb Na Nb H. destruct (eq_E f a b Ca Cb H) as (n & N). eapply E_layout; eassumption. Qed.
End Layout.
End P.
