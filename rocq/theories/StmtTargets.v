(** Every jump of a function goes to a label that is placed. *)
From Coq Require Import List ZArith Bool Lia.
From Verif Require Import Base IntTypes CSpec IntModel IntProofs LowerSpec LowerModel LowerProofs
                          BranchSpec BranchModel BranchProofs BranchRun StmtSpec StmtModel StmtShape StmtProofs.
Import ListNotations.

Section Targets.
Variable first : nat.
Variable ty : nat -> ity.
Variable rt : option ity.
Notation lower_stmt := (lower_stmt first ty rt).
Notation generate := (generate first ty).

(** The places an instruction may go to are among [D]. *)
Definition goes (D : mark -> Prop) (i : instr) : Prop :=
  match i with
  | Plain (Jump n) | Plain (Jump_if _ n) => D (inl n)
  | Switch id cs d => D (inl d) /\ forall v, In v cs -> D (inr (id, v))
  | _ => True
  end.
Definition covers (D : mark -> Prop) (c : list instr) : Prop := forall k, In k (marks c) -> D k.
Lemma covers_app : forall D a b, covers D (a ++ b) <-> covers D a /\ covers D b.
Proof.
  intros D a b. unfold covers. rewrite marks_app. split; [intro H; split; intros k K; apply H, in_or_app; auto|]. intros [A B] k K. apply in_app_or in K. destruct K; auto.
Qed.
Lemma covers_label : forall D n c, covers D (Plain (Jump_label n) :: c) <-> D (inl n) /\ covers D c.
Proof. intros D n c. unfold covers. cbn. split; [intro H; split; [apply H; auto|intros k K; apply H; auto]|]. intros [A B] k [<-|K]; auto. Qed.
Lemma covers_case : forall D id v c, covers D (Case id v :: c) <-> D (inr (id, v)) /\ covers D c.
Proof. intros D id v c. unfold covers. cbn. split; [intro H; split; [apply H; auto|intros k K; apply H; auto]|]. intros [A B] k [<-|K]; auto. Qed.

Lemma covers_jump : forall D n c, covers D (Plain (Jump n) :: c) <-> covers D c.
Proof. reflexivity. Qed.
Lemma covers_jump_if : forall D b n c, covers D (Plain (Jump_if b n) :: c) <-> covers D c.
Proof. reflexivity. Qed.
Lemma covers_switch : forall D id cs d c, covers D (Switch id cs d :: c) <-> covers D c.
Proof. reflexivity. Qed.

Lemma forward_goes : forall D c, forward c -> covers D (plain c) -> Forall (goes D) (plain c).
Proof.
  intros D. induction c as [|i c IH]; intros F C; [constructor|]. cbn [forward] in F. destruct F as [Fi F].
  assert (C' : covers D (plain c)) by (intros k K; apply C; unfold plain in *; cbn [map marks flat_map]; apply in_or_app; right; exact K).
  assert (L : forall n, In (Jump_label n) c -> D (inl n)).
  { intros n H. apply C'. rewrite marks_plain. apply in_map. unfold labels. apply in_flat_map. exists (Jump_label n). split; [exact H|left; reflexivity]. }
  constructor; [|apply IH; assumption]. destruct i; try exact I; cbn in *; auto.
Qed.
Lemma cast_forward : forall t q, forward (emit q) -> forward (emit (cast_expr t q)).
Proof. intros t q H. exact (forward1 (fun a => Done (cast_expr t a)) q _ (cast_tail t) H eq_refl). Qed.

Lemma plain_app : forall a b, plain (a ++ b) = plain a ++ plain b. Proof. intros. apply map_app. Qed.

Definition reach (x : inside) (D : mark -> Prop) : Prop := forall n, break_label x = Some n \/ continue_label x = Some n -> D (inl n).

(** What the lists of the state hold is placed. *)
Definition listed (x : inside) (st st' : flow) (code : list instr) : Prop := forall D, covers D code ->
  (forall v, In v (cases st') -> In v (cases st) \/ exists t id, switch_on x = Some (t, id) /\ D (inr (id, v))) /\
  (forall d, default st' = Some d -> default st = Some d \/ D (inl d)) /\
  (forall n k, In (n, k) (names st') -> In (n, k) (names st) \/ D (inl k)).

Lemma listed_same : forall x st st' code, cases st' = cases st -> default st' = default st -> names st' = names st -> listed x st st' code.
Proof. intros x st st' code A B C D _. rewrite A, B, C. auto. Qed.
Lemma listed_trans : forall x a b c c1 c2 code, listed x a b c1 -> listed x b c c2 -> (forall D, covers D code -> covers D c1 /\ covers D c2) -> listed x a c code.
Proof.
  intros x a b c c1 c2 code A B E D H. destruct (E D H) as [H1 H2]. destruct (A D H1) as (A1 & A2 & A3). destruct (B D H2) as (B1 & B2 & B3). split; [|split].
  - intros v K. destruct (B1 v K) as [K1|K1]; auto.
  - intros d K. destruct (B2 d K) as [K1|K1]; auto.
  - intros n k K. destruct (B3 n k K) as [K1|K1]; auto.
Qed.
Lemma listed_in : forall x y a a' b b' c code, listed y a b c -> switch_on y = switch_on x -> cases a = cases a' -> default a = default a' -> names a = names a' ->
  cases b' = cases b -> default b' = default b -> names b' = names b -> (forall D, covers D code -> covers D c) -> listed x a' b' code.
Proof.
  intros x y a a' b b' c code L E A1 A2 A3 B1 B2 B3 C D H. destruct (L D (C D H)) as (L1 & L2 & L3). rewrite B1, B2, B3, <- A1, <- A2, <- A3, <- E. auto.
Qed.

Ltac opened H :=
  repeat match type of H with
  | with_expr _ _ _ _ _ = Done _ => let q := fresh "q" in let c := fresh "c" in let G := fresh "Ge" in
      apply with_expr_inv in H; destruct H as (q & c & G & H)
  | obind _ _ = Done _ => let a := fresh "code" in let st := fresh "st" in let A := fresh "A" in
      apply bind_inv in H; destruct H as (a & st & A & H)
  end; try (apply done_inj in H; destruct H as [<- <-]).

Lemma effect_targets : forall f st code st', lower_effect first ty f st = Done (code, st') ->
  cases st' = cases st /\ default st' = default st /\ names st' = names st /\ forall D, covers D code -> Forall (goes D) code.
Proof.
  intros [e|y e] st code st' H; cbn [lower_effect] in H; opened H; (split; [reflexivity|]); (split; [reflexivity|]); (split; [reflexivity|]);
    intros D C; (apply forward_goes; [|exact C]); pose proof (generate_forward _ _ _ _ _ _ Ge) as F.
  - apply forward_app; [exact F|]. cbn. auto.
  - unfold lower_assignment. rewrite <- !app_assoc. apply forward_app; [cbn; auto|]. apply forward_app; [apply cast_forward, F|]. cbn. auto.
Qed.

Ltac split_covers H := rewrite ?plain_app, ?covers_app in H; cbn [plain map app] in H; repeat rewrite ?covers_app, ?covers_label, ?covers_case, ?covers_jump, ?covers_jump_if, ?covers_switch in H.
Ltac ands := repeat match goal with H : _ /\ _ |- _ => destruct H end.
Ltac loops := intros ? [E|E]; injection E as <-; assumption.
Ltac split_goes := rewrite ?plain_app; repeat (apply Forall_app; split).

Lemma expr_goes : forall D e c q c', generate e c = Done (q, c') -> covers D (plain (emit q)) -> Forall (goes D) (plain (emit q)).
Proof. intros D e c q c' G C. apply forward_goes; [eapply generate_forward; eauto|exact C]. Qed.

Ltac each := match goal with
  | |- Forall _ (plain (emit _)) => eapply expr_goes; eassumption
  | |- Forall _ (plain _) => repeat constructor; assumption
  | G : forall D, covers D ?c -> reach _ D -> _ |- Forall _ ?c => apply G; [assumption|first [assumption|loops]]
  | G : forall D, covers D ?c -> _ |- Forall _ ?c => apply G; assumption
  end.

Theorem lower_targets : forall s x st code st', lower_stmt s x st = Done (code, st') ->
  listed x st st' code /\ forall D, covers D code -> reach x D -> Forall (goes D) code.
Proof.
  induction s as [|f|a IHa b IHb|e a IHa|e a IHa b IHb|e a IHa|a IHa e|c0 f a IHa| | |e a IHa|t p a IHa|a IHa|e|n|n a IHa];
    intros x st code st' Lo; cbn [StmtModel.lower_stmt] in *.
  - apply done_inj in Lo; destruct Lo as [<- <-]. split; [apply listed_same; reflexivity|constructor].
  - destruct (effect_targets _ _ _ _ Lo) as (A & B & C & G). split; [apply listed_same; assumption|auto].
  - opened Lo. destruct (IHa _ _ _ _ A) as [La Ga]. destruct (IHb _ _ _ _ A0) as [Lb Gb]. split.
    + eapply listed_trans; [exact La|exact Lb|]. intros D H. rewrite covers_app in H. exact H.
    + intros D H R. rewrite covers_app in H. destruct H. apply Forall_app. auto.
  - opened Lo. destruct (IHa _ _ _ _ A) as [La Ga]. split.
    + eapply listed_in; [exact La|..]; try reflexivity. intros D H. split_covers H. tauto.
    + intros D H R. split_covers H. destruct H as ((H1 & _) & H2 & H3 & _). split_goes; [eapply expr_goes; eauto| |auto|]; repeat constructor; auto.
  - opened Lo. destruct (IHa _ _ _ _ A) as [La Ga]. destruct (IHb _ _ _ _ A0) as [Lb Gb]. split.
    + eapply (listed_trans x st (label_taken st0)).
      * eapply listed_in; [exact La|..]; try reflexivity. intros D H; exact H.
      * exact Lb.
      * intros D H. split_covers H. tauto.
    + intros D H R. split_covers H. ands. split_goes; each.
  - opened Lo. destruct (IHa _ _ _ _ A) as [La Ga]. split.
    + eapply listed_in; [exact La|..]; try reflexivity. intros D H. split_covers H. tauto.
    + intros D H R. split_covers H. ands. split_goes; each.
  - opened Lo. destruct (IHa _ _ _ _ A) as [La Ga]. split.
    + eapply listed_in; [exact La|..]; try reflexivity. intros D H. split_covers H. tauto.
    + intros D H R. split_covers H. ands. split_goes; each.
  - opened Lo. destruct (IHa _ _ _ _ A) as [La Ga].
    assert (X : cases st1 = cases st0 /\ default st1 = default st0 /\ names st1 = names st0 /\ forall D, covers D code1 -> Forall (goes D) code1).
    { destruct f; [exact (effect_targets _ _ _ _ A0)|]. apply done_inj in A0. destruct A0 as [<- <-]. repeat split. constructor. }
    destruct X as (X1 & X2 & X3 & X4). split.
    + eapply listed_in; [exact La|..]; try reflexivity; try assumption. intros D H. split_covers H. tauto.
    + intros D H R. split_covers H. ands. split_goes; each.
  - destruct (break_label x) eqn:B; [|discriminate]. opened Lo. split; [apply listed_same; reflexivity|]. intros D H R. repeat constructor. apply R. auto.
  - destruct (continue_label x) eqn:B; [|discriminate]. opened Lo. split; [apply listed_same; reflexivity|]. intros D H R. repeat constructor. apply R. auto.
  - opened Lo. destruct (IHa _ _ _ _ A) as [La Ga]. split.
    + intros D H. split_covers H. destruct (La D ltac:(tauto)) as (_ & _ & L3). cbn [cases default names] in *. auto.
    + intros D H R. split_covers H. assert (H0 : covers D (plain (emit (promotion_cast q)))) by tauto. assert (H1 : covers D code0) by tauto. assert (H2 : D (inl (next_label c))) by tauto. clear H. destruct (La D H1) as (L1 & L2 & _). cbn [cases default] in L1, L2.
      split_goes; [apply forward_goes; [apply cast_forward; eapply generate_forward; eauto|exact H0]| |apply Ga; [exact H1|]|repeat constructor].
      * constructor; [|constructor]. split; [destruct (default st0) as [d|]; [destruct (L2 d eq_refl) as [K|K]; [discriminate|exact K]|exact H2]|].
        intros v K. destruct (L1 v K) as [[]|(t & id & E & K')]. injection E as <- <-. exact K'.
      * intros n [E|E]; [injection E as <-; exact H2|apply R; right; exact E].
  - destruct (switch_on x) as [[u id]|] eqn:SX; [|discriminate]. destruct (existsb _ _); [discriminate|]. opened Lo. destruct (IHa _ _ _ _ A) as [La Ga]. split.
    + intros D H. split_covers H. destruct H as [[H1 _] H2]. destruct (La D H2) as (L1 & L2 & L3). cbn [cases default names] in *. split; [|auto].
      intros v K. destruct (L1 v K) as [K'|K']; [|right; exact K']. apply in_app_or in K'. destruct K' as [K'|[<-|[]]]; [auto|]. right. exists u, id. auto.
    + intros D H R. split_covers H. destruct H as [[H1 _] H2]. constructor; [exact I|]. auto.
  - destruct (switch_on x) as [y|] eqn:SX; [|discriminate]. destruct (default st) eqn:DF; [discriminate|]. opened Lo. destruct (IHa _ _ _ _ A) as [La Ga]. split.
    + intros D H. split_covers H. destruct H as [[H1 _] H2]. destruct (La D H2) as (L1 & L2 & L3). cbn [cases default names] in *. split; [exact L1|]. split; [|exact L3].
      intros d K. destruct (L2 d K) as [K'|K']; [|auto]. injection K' as <-. auto.
    + intros D H R. split_covers H. destruct H as [[H1 _] H2]. constructor; [exact I|]. auto.
  - destruct e as [e|]; destruct rt; try discriminate; opened Lo; (split; [apply listed_same; reflexivity|]); intros D H R.
    + split_covers H. split_goes; [apply forward_goes; [apply cast_forward; eapply generate_forward; eauto|tauto]|repeat constructor].
    + repeat constructor.
  - opened Lo. split; [apply listed_same; reflexivity|]. intros D H R. repeat constructor.
  - destruct (existsb _ _); [discriminate|]. opened Lo. destruct (IHa _ _ _ _ A) as [La Ga]. split.
    + intros D H. split_covers H. destruct H as [[H1 _] H2]. destruct (La D H2) as (L1 & L2 & L3). cbn [cases default names] in *. split; [exact L1|]. split; [exact L2|].
      intros m k K. destruct (L3 m k K) as [K'|K']; [|auto]. apply in_app_or in K'. destruct K' as [K'|[E|[]]]; [auto|injection E as <- <-; auto].
    + intros D H R. split_covers H. destruct H as [[H1 _] H2]. constructor; [exact I|]. auto.
Qed.

Lemma label_of_listed : forall l n k, label_of l n = Some k -> exists m, In (m, k) l.
Proof.
  intros l n k H. unfold label_of in H. destruct (find _ l) as [[m k']|] eqn:E; [|discriminate]. injection H as <-. apply find_some in E. exists m. apply E.
Qed.

Theorem function_targets : forall is_main body P c, lower_function first ty rt is_main body = Done (P, c) ->
  Forall (fun i => goes (fun k => In k (marks P)) i /\ resolved i = true) P.
Proof.
  intros is_main body P c Lo. unfold lower_function in Lo. apply bind_inv in Lo. destruct Lo as (code & st & A & Lo).
  destruct (forallb resolved _) eqn:R; [|discriminate]. apply done_inj in Lo. destruct Lo as [<- _].
  set (tail := match is_main, rt with true, Some S32 => [Plain (Integer_literal (mklit S32 0)); Return] | _, _ => [] end).
  set (P := map (resolve (names st)) code ++ tail). destruct (lower_targets _ _ _ _ _ A) as [Ls G].
  assert (C : covers (fun k => In k (marks P)) code).
  { intros k K. unfold P. rewrite marks_app, StmtShape.marks_resolve. apply in_or_app. left. exact K. }
  destruct (Ls _ C) as (_ & _ & L3). cbn in L3.
  assert (Ro : reach outermost (fun k => In k (marks P))) by (intros n [E|E]; discriminate).
  specialize (G _ C Ro). apply Forall_app. split.
  - apply Forall_forall. intros i Hi. rewrite forallb_forall in R. split; [|apply R, Hi]. apply in_map_iff in Hi. destruct Hi as (j & <- & Hj).
    rewrite Forall_forall in G. specialize (G j Hj). destruct j; try exact G. cbn [resolve]. destruct (label_of (names st) name) as [k|] eqn:E; [|exact I].
    apply label_of_listed in E. destruct E as (m & E). destruct (L3 m k E) as [[]|K]. exact K.
  - unfold tail. destruct is_main, rt as [[]|]; repeat constructor.
Qed.
End Targets.
