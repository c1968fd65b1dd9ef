(** Proofs that code with jumps computes the value of the expression (BranchModel.v). *)
From Coq Require Import List ZArith Bool Lia Arith.
From Verif Require Import Base IntTypes CSpec IntModel IntProofs LowerSpec LowerModel LowerProofs BranchSpec BranchModel BranchProofs.
Import ListNotations.
Open Scope Z_scope.

Definition agree (n : nat) (a b : memory) : Prop := forall x, (x < n)%nat -> a x = b x.

Lemma agree_trans : forall n k a b c, agree n a b -> agree k b c -> (n <= k)%nat -> agree n a c.
Proof. intros n k a b c A B L x X. rewrite A by exact X. apply B. lia. Qed.
Lemma agree_less : forall n k a b, agree k a b -> (n <= k)%nat -> agree n a b.
Proof. intros n k a b A L x X. apply A. lia. Qed.
Lemma agree_update : forall n a x v, (n <= x)%nat -> agree n (update a x v) a.
Proof. intros n a x v L y Y. unfold update. destruct (Nat.eqb_spec y x); [lia|reflexivity]. Qed.
Lemma agree_refl : forall n a, agree n a a.
Proof. intros n a x _. reflexivity. Qed.

(** ** Stand-ins: code that pushes a given operand *)
Definition code_for (c : operand) : list ir :=
  match c with
  | Location x => [Identifier x]
  | Value n w => [Integer_literal (mklit U64 w); Cast false (Sign_extend 0 n)]
  | Immediate _ _ => []
  end.

Ltac gen_inv H :=
  repeat match type of H with
         | obind _ _ = Done _ => apply obind_inv in H; let p := fresh "p" in let E := fresh "E" in destruct H as (p & E & H); try (destruct p as [? ?])
         end.

Section Semantics.
Variable first : nat.
Variable ty : nat -> ity.
Variable final : counters.
Variable env : values.
Variable m : memory.
Notation T := (all_types first ty final).
Notation vb := (fun x => bits (all_types first ty final x)).
Notation run := (BranchModel.run vb).
Notation exec := (LowerModel.exec vb).
Notation generate := (generate first ty).
Notation variable_of := (variable_of first).

Lemma code_for_ok : forall m2 c t v, runtime c -> yields T m2 c t v -> forall s, exec (code_for c) s m2 = Next (c :: s, m2).
Proof.
  intros m2 c t v R [B C] s. destruct c as [n w| |x]; [|contradiction|reflexivity].
  cbn [operand_bits contents] in B, C. cbn [code_for LowerModel.exec LowerModel.step rbind fst snd cast_word]. do 3 f_equal. f_equal.
  unfold integer_literal_as_u64. rewrite read_value.
  pose proof (width_pos t). pose proof (Z.mod_pos_bound v (2 ^ width t) ltac:(apply Z.pow_pos_nonneg; lia)).
  assert (2 ^ width t <= 2 ^ 64) by (apply Z.pow_le_mono_r; [lia|destruct t; vm_compute; discriminate]).
  rewrite value_in by (unfold in_range; change (minv U64) with 0; change (maxv U64) with (2 ^ 64 - 1); lia).
  rewrite C, B. unfold wrapu. rewrite (Z.mod_small (v mod 2 ^ width t) (2 ^ 64)) by lia. apply Z.mod_small. lia.
Qed.

Lemma stable : forall hi m1 m2 c t v, yields T m1 c t v -> lok hi c -> agree hi m2 m1 -> yields T m2 c t v.
Proof.
  intros hi m1 m2 c t v [B C] L A. split; [exact B|]. destruct c; cbn in *; auto. rewrite A by exact L. exact C.
Qed.

(** ** What code does *)
Definition pushes (lo : nat) (q : expr) (t : ity) (v : Z) : Prop :=
  resolved_type q = t /\ object_value t v /\
  match literal q with
  | Some l => lty l = t /\ value l = v
  | None =>
      forall m0, agree first m0 m ->
      exists c m1, runtime c /\ (forall s, run (code q) None s m0 = Next (c :: s, m1)) /\ agree lo m1 m0 /\ yields T m1 c t v
  end.

Lemma pushes_less : forall lo lo' q t v, pushes lo q t v -> (lo' <= lo)%nat -> pushes lo' q t v.
Proof.
  intros lo lo' q t v (R & O & P) L. split; [exact R|]. split; [exact O|]. destruct (literal q); [exact P|].
  intros m0 A. destruct (P m0 A) as (c & m1 & Rc & X & G & Y). exists c, m1. repeat (split; [assumption|]). split; [|exact Y].
  eapply agree_less; eassumption.
Qed.

Lemma emit_run : forall lo q t v m0, pushes lo q t v -> agree first m0 m ->
  exists c m1, (forall s, run (emit q) None s m0 = Next (c :: s, m1)) /\ agree lo m1 m0 /\ yields T m1 c t v /\
    (literal q = None -> runtime c).
Proof.
  intros lo q t v m0 (R & O & P) A. unfold emit. destruct (literal q) as [l|].
  - destruct P as [<- <-]. eexists _, m0. split; [intro s; reflexivity|]. split; [apply agree_refl|]. split; [apply literal_yields|discriminate].
  - destruct (P m0 A) as (c & m1 & Rc & X & G & Y). exists c, m1. auto.
Qed.

(** An operand, and a stand-in for it in any later memory. *)
Lemma part_run : forall lo a ta va m0, pushes lo a ta va -> agree first m0 m ->
  exists m1, agree lo m1 m0 /\
    forall hi m2, Forall (below hi) (emit a) -> agree hi m2 m1 ->
    exists a', alike a a' /\ good T m2 a' ta va /\
      forall pa pa', part a a' pa pa' ->
        exists ca, (forall s, run pa None s m0 = Next (ca :: s, m1)) /\ (forall s, exec pa' s m2 = Next (ca :: s, m2)).
Proof.
  intros lo a ta va m0 (R & O & P) A. unfold part, emit. destruct (literal a) as [l|] eqn:LA.
  - exists m0. split; [apply agree_refl|]. intros hi m2 _ _. exists a. split; [apply alike_refl|]. split.
    + split; [exact R|]. split; [exact O|]. rewrite LA. exact P.
    + intros pa pa' [<- [l' ->]]. eexists. split; intro s; reflexivity.
  - destruct (P m0 A) as (c & m1 & Rc & X & G & Y). exists m1. split; [exact G|]. intros hi m2 B G2.
    assert (Lc : lok hi c).
    { pose proof (run_lok vb hi (code a) None [] m0 [c] m1 (X []) B (Forall_nil _)) as F. inversion F. assumption. }
    pose proof (stable hi m1 m2 c ta va Y Lc G2) as Y2. pose proof (code_for_ok m2 c ta va Rc Y2) as C.
    exists (mkexpr (code_for c) ta None). split; [split; [exact R|exact LA]|]. split.
    + split; [reflexivity|]. split; [exact O|]. cbn [literal code]. exists c. auto.
    + intros pa pa' [-> ->]. cbn [code]. exists c. auto.
Qed.

(** A stand-in whatever the memory. *)
Lemma any_good : forall lo a ta va, pushes lo a ta va -> exists a', alike a a' /\ good T m a' ta va.
Proof.
  intros lo a ta va (R & O & P). destruct (literal a) as [l|] eqn:LA.
  - exists a. split; [apply alike_refl|]. split; [exact R|]. split; [exact O|]. rewrite LA. exact P.
  - assert (Y : yields T m (Value (width ta) (va mod 2 ^ width ta)) ta va) by (split; reflexivity).
    exists (mkexpr (code_for (Value (width ta) (va mod 2 ^ width ta))) ta None). split; [split; [exact R|exact LA]|].
    split; [reflexivity|]. split; [exact O|]. cbn [literal code]. eexists. split; [|split; [|exact Y]; exact I].
    eapply code_for_ok; [exact I|exact Y].
Qed.

(** The operator computes [v] from the operands' values. *)
Definition means2 (f : expr -> expr -> outcome expr) (ta : ity) (va : Z) (tb : ity) (vb0 : Z) (t : ity) (v : Z) : Prop :=
  forall m2 a b, good T m2 a ta va -> good T m2 b tb vb0 -> exists e, f a b = Done e /\ good T m2 e t v.
Definition means1 (f : expr -> outcome expr) (ta : ity) (va : Z) (t : ity) (v : Z) : Prop :=
  forall m2 a, good T m2 a ta va -> exists e, f a = Done e /\ good T m2 e t v.

Lemma accepted2 : forall f lo lo' a b ta va tb vb0 t v, tail2 f -> means2 f ta va tb vb0 t v ->
  pushes lo a ta va -> pushes lo' b tb vb0 -> exists e, f a b = Done e.
Proof.
  intros f lo lo' a b ta va tb vb0 t v F M A B.
  destruct (any_good _ _ _ _ A) as (a' & Aa & Ga). destruct (any_good _ _ _ _ B) as (b' & Ab & Gb).
  destruct (M m a' b' Ga Gb) as (e' & E' & _). specialize (F a b a' b' Aa Ab). rewrite E' in F.
  destruct (f a b) as [e| |]; try contradiction. eauto.
Qed.
Lemma accepted1 : forall f lo a ta va t v, tail1 f -> means1 f ta va t v -> pushes lo a ta va -> exists e, f a = Done e.
Proof.
  intros f lo a ta va t v F M A.
  destruct (any_good _ _ _ _ A) as (a' & Aa & Ga).
  destruct (M m a' Ga) as (e' & E' & _). specialize (F a a' Aa). rewrite E' in F.
  destruct (f a) as [e| |]; try contradiction. eauto.
Qed.

Lemma pushes2 : forall f c c1 a b e ta va tb vb0 t v, tail2 f -> means2 f ta va tb vb0 t v ->
  shaped first c c1 a -> pushes (variable_of c) a ta va -> pushes (variable_of c1) b tb vb0 -> f a b = Done e ->
  pushes (variable_of c) e t v.
Proof.
  intros f c c1 a b e ta va tb vb0 t v F M S A B E.
  assert (V : (first <= variable_of c /\ variable_of c <= variable_of c1)%nat).
  { split; [unfold BranchModel.variable_of; lia|apply grows_variable, S]. }
  destruct (any_good _ _ _ _ A) as (a' & Aa & Ga). destruct (any_good _ _ _ _ B) as (b' & Ab & Gb).
  destruct (M m a' b' Ga Gb) as (e' & E' & Re & O & P). pose proof (F a b a' b' Aa Ab) as K. rewrite E, E' in K. destruct K as [[Kr Kl] K].
  split; [congruence|]. split; [exact O|]. rewrite <- Kl in P. destruct (literal e) as [l|] eqn:LE; [exact P|]. clear K P.
  intros m0 A0. destruct (part_run _ _ _ _ m0 A A0) as (m1 & G1 & QA).
  assert (A1 : agree first m1 m) by (eapply agree_trans; [eapply agree_less; [exact G1|lia]|exact A0|lia]).
  destruct (part_run _ _ _ _ m1 B A1) as (m2 & G2 & QB).
  destruct (QA (variable_of c1) m2 (proj2 (proj2 (proj2 S))) G2) as (a2 & Aa2 & Ga2 & Pa2).
  assert (QB' : exists b2, alike b b2 /\ good T m2 b2 tb vb0 /\
      forall pb pb', part b b2 pb pb' ->
        exists cb, (forall s, run pb None s m1 = Next (cb :: s, m2)) /\ (forall s, exec pb' s m2 = Next (cb :: s, m2))).
  { assert (H : exists hi, Forall (below hi) (emit b)).
    { clear. induction (emit b) as [|i l [hi IH]]; [exists 0%nat; constructor|].
      exists (max hi (match i with Identifier x => S x | _ => 0%nat end)). constructor.
      - destruct i; cbn; auto. lia.
      - eapply below_mono; [|exact IH]. lia. }
    destruct H as [hi H]. exact (QB hi m2 H (agree_refl _ _)). }
  destruct QB' as (b2 & Ab2 & Gb2 & Pb2).
  destruct (M m2 a2 b2 Ga2 Gb2) as (e2 & E2 & R2 & _ & P2). pose proof (F a b a2 b2 Aa2 Ab2) as K. rewrite E, E2 in K. destruct K as [[_ Kl2] K].
  destruct (K LE) as (pa & pb & pa' & pb' & W & C & C' & Pa & Pb & _). rewrite <- Kl2, LE in P2. destruct P2 as (c0 & X & Rc & Y).
  destruct (Pa2 pa pa' Pa) as (ca & Xa & Xa'). destruct (Pb2 pb pb' Pb) as (cb & Xb & Xb').
  exists c0, m2. split; [exact Rc|]. split; [|split; [|exact Y]].
  - intro s. rewrite C, (run_app vb _ _ _ _ _ _ _ (Xa s)), (run_app vb _ _ _ _ _ _ _ (Xb (ca :: s))). apply run_exec.
    specialize (X s). rewrite C' in X. rewrite exec_app, Xa' in X. cbn [rbind fst snd] in X. rewrite exec_app, Xb' in X. exact X.
  - eapply agree_trans; [eapply agree_less; [exact G2|lia]|exact G1|lia].
Qed.

Lemma pushes1 : forall f lo a e ta va t v, tail1 f -> means1 f ta va t v -> pushes lo a ta va -> f a = Done e -> pushes lo e t v.
Proof.
  intros f lo a e ta va t v F M A E.
  destruct (any_good _ _ _ _ A) as (a' & Aa & Ga).
  destruct (M m a' Ga) as (e' & E' & Re & O & P). pose proof (F a a' Aa) as K. rewrite E, E' in K. destruct K as ([Kr Kl] & LL & K).
  split; [congruence|]. split; [exact O|]. rewrite <- Kl in P. destruct (literal e) as [l|] eqn:LE; [exact P|]. clear K P.
  assert (LA : literal a = None) by (destruct (literal a); [exfalso; apply LL; congruence|reflexivity]).
  intros m0 A0. destruct (part_run _ _ _ _ m0 A A0) as (m1 & G1 & QA).
  assert (H : exists hi, Forall (below hi) (emit a)).
  { clear. induction (emit a) as [|i l [hi IH]]; [exists 0%nat; constructor|].
    exists (max hi (match i with Identifier x => S x | _ => 0%nat end)). constructor.
    - destruct i; cbn; auto. lia.
    - eapply below_mono; [|exact IH]. lia. }
  destruct H as [hi H]. destruct (QA hi m1 H (agree_refl _ _)) as (a2 & Aa2 & Ga2 & Pa2).
  destruct (M m1 a2 Ga2) as (e2 & E2 & R2 & _ & P2). pose proof (F a a2 Aa2) as K. rewrite E, E2 in K. destruct K as ([_ Kl2] & _ & K).
  destruct (K LE) as (W & C & C' & _). rewrite <- Kl2, LE in P2. destruct P2 as (c0 & X & Rc & Y).
  destruct (Pa2 (code a) (code a2)) as (ca & Xa & Xa'); [unfold part; rewrite LA; auto|].
  exists c0, m1. split; [exact Rc|]. split; [|split; [exact G1|exact Y]].
  intro s. rewrite C, (run_app vb _ _ _ _ _ _ _ (Xa s)). apply run_exec.
  specialize (X s). rewrite C' in X. rewrite exec_app, Xa' in X. exact X.
Qed.

Definition flag (e : expr) : bool := match literal e with Some _ => true | None => false end.
Lemma with_flag : forall m2 e t v, good T m2 e t v -> lowered T m2 e t v (flag e).
Proof. intros m2 e t v G. split; [exact G|]. unfold flag. destruct (literal e); split; congruence. Qed.

Lemma arith_means : forall o ta va tb vb0 t v, arith_value o (ta, va) (tb, vb0) = Some (t, v) -> means2 (lower_arith o) ta va tb vb0 t v.
Proof.
  intros o ta va tb vb0 t v E m2 a b A B.
  destruct (lower_arith_ok T m2 o a b ta tb va vb0 t v _ _ (with_flag _ _ _ _ A) (with_flag _ _ _ _ B) E) as (e & X & G & _). eauto.
Qed.
Lemma bit_means : forall o ta va tb vb0 t v, bit_value o (ta, va) (tb, vb0) = Some (t, v) -> means2 (lower_bit o) ta va tb vb0 t v.
Proof.
  intros o ta va tb vb0 t v E m2 a b A B.
  destruct (lower_bit_ok T m2 o a b ta tb va vb0 t v _ _ (with_flag _ _ _ _ A) (with_flag _ _ _ _ B) E) as (e & X & G & _). eauto.
Qed.
Lemma cmp_means : forall o ta va tb vb0, means2 (lower_cmp o) ta va tb vb0 S32 (cmp_sem o (convert (usual_int ta tb) va) (convert (usual_int ta tb) vb0)).
Proof.
  intros o ta va tb vb0 m2 a b A B.
  destruct (lower_cmp_ok T m2 o a b ta tb va vb0 _ _ (with_flag _ _ _ _ A) (with_flag _ _ _ _ B)) as (e & X & G & _). eauto.
Qed.
Lemma shl_means : forall ta va tb vb0 t v, shl_value (ta, va) (tb, vb0) = Some (t, v) -> means2 (lower_shift true) ta va tb vb0 t v.
Proof.
  intros ta va tb vb0 t v E m2 a b A B. unfold shl_value in E. cbn [fst snd] in E. cbv zeta in E.
  destruct ((0 <=? vb0) && (vb0 <? width (promote ta))) eqn:K; [|discriminate]. injection E as <- <-.
  destruct (lower_shift_ok T m2 true a b ta tb va vb0 A B) as (e & X & G & _); [lia|]. eauto.
Qed.
Lemma shr_means : forall ta va tb vb0 t v, shr_value (ta, va) (tb, vb0) = Some (t, v) -> means2 (lower_shift false) ta va tb vb0 t v.
Proof.
  intros ta va tb vb0 t v E m2 a b A B. unfold shr_value in E. cbn [fst snd] in E. cbv zeta in E.
  destruct ((0 <=? vb0) && (vb0 <? width (promote ta))) eqn:K; [|discriminate]. injection E as <- <-.
  destruct (lower_shift_ok T m2 false a b ta tb va vb0 A B) as (e & X & G & _); [lia|]. eauto.
Qed.
Lemma un_means : forall o ta va, means1 (lower_un o) ta va (fst (un_sem o ta va)) (snd (un_sem o ta va)).
Proof.
  intros o ta va m2 a A. destruct (lower_un_ok T m2 o a ta va _ (with_flag _ _ _ _ A)) as (e & X & G & _). eauto.
Qed.
Lemma cast_means : forall t ta va, means1 (fun a => Done (cast_expr t a)) ta va t (convert t va).
Proof. intros t ta va m2 a A. eexists. split; [reflexivity|]. eapply cast_good, A. Qed.

(** ** Temporaries *)
Lemma temporary_type : forall t c, grows (new_variable t c) final -> T (variable_of c) = t.
Proof.
  intros t c [_ [new N]]. unfold all_types, BranchModel.variable_of. destruct (Nat.ltb_spec (first + length (unnamed c)) first); [lia|].
  replace (first + length (unnamed c) - first)%nat with (length (unnamed c)) by lia.
  rewrite N. cbn [unnamed new_variable]. rewrite <- app_assoc. cbn [app].
  rewrite app_nth2 by lia. rewrite Nat.sub_diag. reflexivity.
Qed.

Lemma program_type : forall x, (x < first)%nat -> T x = ty x.
Proof. intros x X. unfold all_types. destruct (Nat.ltb_spec x first); [reflexivity|lia]. Qed.

(** [x = v;] where the value is on the top of the stack. *)
Lemma store_run : forall rest x c s m1 t v, T x = t -> yields T m1 c t v ->
  run ([Store; Pop_expression] ++ rest) None (c :: Location x :: s) m1 = run rest None s (update m1 x (v mod 2 ^ width t)).
Proof.
  intros rest x c s m1 t v Tx Y. cbn [app BranchModel.run LowerModel.step]. rewrite Tx, bits_width, (fetch_yields T m1 c t v Y).
  cbn [rbind fst snd LowerModel.step]. reflexivity.
Qed.

Lemma set_run : forall rest x v s m1, T x = S32 -> (v = 0 \/ v = 1) ->
  run (set_temporary x v ++ rest) None s m1 = run rest None s (update m1 x v).
Proof.
  intros rest x v s m1 Tx V. unfold set_temporary. cbn [app BranchModel.run LowerModel.step rbind fst snd].
  pose proof (store_run rest x (Immediate 32 (integer_literal_as_u64 (mklit S32 v))) s m1 S32 v Tx) as R.
  cbn [app BranchModel.run LowerModel.step rbind fst snd] in R.
  assert (E : v mod 2 ^ width S32 = v) by (destruct V; subst; reflexivity). rewrite E in R. apply R.
  split; [reflexivity|]. destruct V; subst; reflexivity.
Qed.

Lemma identifier_yields : forall x t v m1, T x = t -> yields T (update m1 x (v mod 2 ^ width t)) (Location x) t v.
Proof.
  intros x t v m1 E. split; cbn [operand_bits contents]; [rewrite E; apply bits_width|]. unfold update. rewrite Nat.eqb_refl. reflexivity.
Qed.

Lemma truth_of : forall c t v m1, yields T m1 c t v -> in_range t v -> (contents m1 c =? 0) = (v =? 0).
Proof. intros c t v m1 [_ C] R. rewrite C. apply word_zero, R. Qed.

(** ** && and || *)
Definition logical_value (on : bool) (x y va : Z) (vb0 : option Z) : option Z :=
  if Bool.eqb (negb (va =? 0)) on then Some y
  else match vb0 with Some w => Some (if Bool.eqb (negb (w =? 0)) on then y else x) | None => None end.

Lemma logical_pushes : forall c c1 c2 a b on x y ta va tb ob v,
  shaped first c c1 a -> shaped first (new_label c1) c2 b -> grows (new_label (new_variable S32 c2)) final ->
  pushes (variable_of c) a ta va ->
  (forall w, ob = Some w -> pushes (variable_of c1) b tb w) ->
  (x = 0 \/ x = 1) -> (y = 0 \/ y = 1) ->
  logical_value on x y va ob = Some v ->
  pushes (variable_of c)
    (mkexpr (emit a ++ [Jump_if on (next_label c1)] ++ emit b ++ [Jump_if on (next_label c1)] ++ set_temporary (variable_of c2) x ++ [Jump (next_label c2)] ++
       [Jump_label (next_label c1)] ++ set_temporary (variable_of c2) y ++ [Jump_label (next_label c2)] ++ [Identifier (variable_of c2)]) S32 None) S32 v.
Proof.
  intros c c1 c2 a b on x y ta va tb ob v Sa Sb G A B X Y E.
  assert (TT : T (variable_of c2) = S32) by (apply temporary_type; eapply grows_trans; [apply grows_label|exact G]).
  assert (V : v = 0 \/ v = 1).
  { unfold logical_value in E. destruct (Bool.eqb _ _); [injection E as <-; exact Y|]. destruct ob as [w|]; [|discriminate]. injection E as <-. destruct (Bool.eqb _ _); assumption. }
  assert (L : (variable_of c <= variable_of c1 /\ variable_of c1 <= variable_of c2 /\ first <= variable_of c)%nat).
  { destruct Sa as [Ga _]. destruct Sb as [Gb _]. apply grows_variable with (first := first) in Ga, Gb. unfold BranchModel.variable_of in *. cbn in *. lia. }
  split; [reflexivity|]. split.
  { apply object_of; [|discriminate]. unfold in_range. destruct V; subst; cbn; lia. }
  cbn [literal code]. intros m0 A0.
  destruct (emit_run _ _ _ _ m0 A A0) as (ca & m1 & Xa & G1 & Ya & _).
  assert (Za : (contents m1 ca =? 0) = (va =? 0)) by (eapply truth_of; [exact Ya|apply object_in, A]).
  assert (End : forall z s mm, (z = 0 \/ z = 1) -> run (set_temporary (variable_of c2) z ++ [Jump_label (next_label c2)] ++ [Identifier (variable_of c2)]) None s mm
     = Next (Location (variable_of c2) :: s, update mm (variable_of c2) z)).
  { intros z s mm Z. rewrite set_run by (exact TT || exact Z). reflexivity. }
  assert (Exit : forall s mm, run (set_temporary (variable_of c2) x ++ [Jump (next_label c2)] ++ [Jump_label (next_label c1)] ++
       set_temporary (variable_of c2) y ++ [Jump_label (next_label c2)] ++ [Identifier (variable_of c2)]) None s mm
     = Next (Location (variable_of c2) :: s, update mm (variable_of c2) x)).
  { intros s mm. rewrite set_run by (exact TT || exact X). cbn [app BranchModel.run]. 
    destruct Sb as ((Gb & _) & _). cbn in Gb. destruct (Nat.eqb_spec (next_label c1) (next_label c2)); [lia|].
    rewrite (run_skip_to vb (set_temporary (variable_of c2) y) [Identifier (variable_of c2)]) by (rewrite set_labels; tauto). reflexivity. }
  assert (Jumped : forall s mm, run ([Jump_if on (next_label c1)] ++ set_temporary (variable_of c2) x ++ [Jump (next_label c2)] ++ [Jump_label (next_label c1)] ++
       set_temporary (variable_of c2) y ++ [Jump_label (next_label c2)] ++ [Identifier (variable_of c2)]) (Some (next_label c1)) s mm
     = Next (Location (variable_of c2) :: s, update mm (variable_of c2) y)).
  { intros s mm.
    rewrite (run_skip vb [Jump_if on (next_label c1)]) by (cbn; tauto).
    rewrite (run_skip vb (set_temporary (variable_of c2) x)) by (rewrite set_labels; tauto).
    rewrite (run_skip vb [Jump (next_label c2)]) by (cbn; tauto).
    cbn [app BranchModel.run]. rewrite Nat.eqb_refl. apply End, Y. }
  assert (Yields : forall mm z, z = 0 \/ z = 1 -> yields T (update mm (variable_of c2) z) (Location (variable_of c2)) S32 z).
  { intros mm z Z. pose proof (identifier_yields (variable_of c2) S32 z mm TT) as Q.
    assert (Ez : z mod 2 ^ width S32 = z) by (destruct Z; subst; reflexivity). rewrite Ez in Q. exact Q. }
  unfold logical_value in E. destruct (Bool.eqb (negb (va =? 0)) on) eqn:Ea.
  - injection E as <-. exists (Location (variable_of c2)), (update m1 (variable_of c2) y). split; [exact I|]. split; [|split].
    + intro s. rewrite (run_app vb _ _ _ _ _ _ _ (Xa s)). cbn [app BranchModel.run]. rewrite Za, Ea.
      rewrite run_skip; [apply Jumped|]. intro K. apply Sb in K. cbn in K. lia.
    + eapply agree_trans; [apply agree_update; lia|exact G1|lia].
    + apply Yields, Y.
  - destruct ob as [w|]; [|discriminate]. injection E as E.
    assert (A1 : agree first m1 m) by (eapply agree_trans; [eapply agree_less; [exact G1|lia]|exact A0|lia]).
    destruct (emit_run _ _ _ _ m1 (B w eq_refl) A1) as (cb & m2 & Xb & G2 & Yb & _).
    assert (Zb : (contents m2 cb =? 0) = (w =? 0)) by (eapply truth_of; [exact Yb|apply object_in, (B w eq_refl)]).
    exists (Location (variable_of c2)), (update m2 (variable_of c2) v). split; [exact I|]. split; [|split].
    + intro s. rewrite (run_app vb _ _ _ _ _ _ _ (Xa s)). cbn [app BranchModel.run]. rewrite Za, Ea.
      rewrite (run_app vb _ _ _ _ _ _ _ (Xb s)). cbn [app BranchModel.run]. rewrite Zb.
      destruct (Bool.eqb (negb (w =? 0)) on); subst v.
      * specialize (Jumped s m2). cbn [app BranchModel.run] in Jumped. exact Jumped.
      * apply Exit.
    + eapply agree_trans; [apply agree_update; lia| |exact (le_n _)].
      eapply agree_trans; [eapply agree_less; [exact G2|lia]|exact G1|lia].
    + apply Yields, V.
Qed.

(** ** ?: *)
Lemma cast_emit : forall t a a1 k, push_cast_expr false t a = (a1, k) -> emit (cast_expr t a) = emit a1 ++ k.
Proof.
  intros t a a1 k H. destruct (push_parts false t a a (alike_refl a)) as (p & p' & k0 & y & y' & E & _ & _ & _ & _ & _ & _ & _ & N & _ & K).
  rewrite H in E. injection E as <- <-. unfold cast_expr. rewrite H. unfold emit. cbn [literal code]. destruct (literal a1) eqn:L; [|reflexivity].
  rewrite K by (intro Z; apply N in Z; discriminate). reflexivity.
Qed.

Lemma nop_run : forall a b tg s m0, run (a ++ [Nop] ++ b) tg s m0 = run (a ++ b) tg s m0.
Proof.
  induction a as [|i a IH]; intros b tg s m0; [destruct tg; reflexivity|]. cbn [app BranchModel.run]. destruct tg as [n|].
  - destruct i; try apply IH. destruct (Nat.eqb label n); apply IH.
  - destruct i; try apply IH;
      try (match goal with |- rbind ?x _ = _ => destruct x as [[s2 m2]| |]; try reflexivity end; cbn [rbind fst snd]; apply IH).
    destruct s as [|a0 s]; [reflexivity|]. apply IH.
Qed.

Lemma conditional_pushes : forall c c1 c2 c3 x a b q c' tx vx ta tb oa ob w,
  shaped first c c1 x -> shaped first (new_label c1) c2 a -> shaped first (new_label c2) c3 b ->
  lower_conditional first x a b (next_label c1) (next_label c2) c3 = Done (q, c') -> grows c' final ->
  resolved_type a = ta -> resolved_type b = tb ->
  pushes (variable_of c) x tx vx ->
  (forall v, oa = Some v -> pushes (variable_of c1) a ta v) ->
  (forall v, ob = Some v -> pushes (variable_of c2) b tb v) ->
  (if vx =? 0 then ob else oa) = Some w ->
  pushes (variable_of c) q (usual_int ta tb) (convert (usual_int ta tb) w).
Proof.
  intros c c1 c2 c3 x a b q c' tx vx ta tb oa ob w Sx Sa Sb H G Ta Tb X A B E. unfold lower_conditional in H. rewrite usual_int_eq, Ta, Tb in H.
  set (t := usual_int ta tb) in *.
  destruct (push_cast_expr false t a) as [a1 ka] eqn:Ea. destruct (push_cast_expr false t b) as [b1 kb] eqn:Eb.
  pose proof (push_type _ _ _ _ _ Ea) as Ra. pose proof (push_type _ _ _ _ _ Eb) as Rb.
  pose proof (push_shape _ _ _ _ _ Ea) as (La & _ & Sta). pose proof (push_shape _ _ _ _ _ Eb) as (Lb & _ & Stb).
  apply cast_emit in Ea. apply cast_emit in Eb.
  rewrite Ra, Rb in H. cbv zeta in H. assert (Lg : (if size t <? size t then t else t) = t) by (destruct (_ <? _); reflexivity). rewrite Lg in H.
  set (kept := match ka with [] => [Nop] | _ => ka end) in *. set (moved := match ka with [] => [] | _ => [Nop] end) in *.
  assert (Kk : Forall straight kept) by (unfold kept; destruct ka; [repeat constructor|exact Sta]).
  assert (Km : Forall straight moved) by (unfold moved; destruct ka; repeat constructor).
  match type of H with Done (?u, ?w) = _ => assert (E1 : q = u /\ c' = w) by (split; congruence) end. destruct E1 as [-> ->]. clear H.
  assert (TT : T (variable_of c3) = t) by (apply temporary_type; exact G).
  assert (L : (variable_of c <= variable_of c1 /\ variable_of c1 <= variable_of c2 /\ variable_of c2 <= variable_of c3 /\ first <= variable_of c)%nat).
  { destruct Sx as [Gx _]. destruct Sa as [Ga _]. destruct Sb as [Gb _]. apply grows_variable with (first := first) in Gx, Ga, Gb. unfold BranchModel.variable_of in *. cbn in *. lia. }
  assert (Nl : (next_label c1 < next_label c2 /\ next_label c2 < next_label c3)%nat).
  { destruct Sa as ((Ga & _) & _). destruct Sb as ((Gb & _) & _). cbn in *. lia. }
  assert (Ob : object_value t (convert t w)) by apply convert_object.
  split; [reflexivity|]. split; [exact Ob|]. cbn [literal code]. intros m0 A0.
  destruct (emit_run _ _ _ _ m0 X A0) as (cx & m1 & Xx & G1 & Yx & _).
  assert (Zx : (contents m1 cx =? 0) = (vx =? 0)) by (eapply truth_of; [exact Yx|apply object_in, X]).
  assert (A1 : agree first m1 m) by (eapply agree_trans; [eapply agree_less; [exact G1|lia]|exact A0|lia]).
  assert (NK : ~ In (next_label c1) (labels (emit a1))) by (rewrite La; intro K; apply Sa in K; cbn in K; lia).
  destruct (vx =? 0) eqn:Ex.
  - (* third operand *)
    subst ob. pose proof (pushes1 _ _ _ _ _ _ _ _ (cast_tail t) (cast_means t tb w) (B w eq_refl) eq_refl) as P.
    destruct (emit_run _ _ _ _ m1 P A1) as (c0 & m2 & X2 & G2 & Y2 & _). rewrite Eb in X2.
    exists (Location (variable_of c3)), (update m2 (variable_of c3) (convert t w mod 2 ^ width t)). split; [exact I|]. split; [|split].
    + intro s. rewrite (run_app vb _ _ _ _ _ _ _ (Xx s)). cbn [app BranchModel.run]. rewrite Zx. cbn [negb Bool.eqb].
      rewrite (run_skip vb (emit a1)) by exact NK. rewrite (run_skip vb kept) by (rewrite straight_labels; auto).
      cbn [BranchModel.run]. rewrite Nat.eqb_refl. cbn [LowerModel.step rbind fst snd].
      assert (X3 : run (emit b1 ++ moved ++ kb) None (Location (variable_of c3) :: s) m1 = Next (c0 :: Location (variable_of c3) :: s, m2)).
      { unfold moved. destruct ka; [apply X2|]. rewrite nop_run. apply X2. }
      replace (emit b1 ++ moved ++ kb ++ Store :: Pop_expression :: Jump_label (next_label c2) :: [Identifier (variable_of c3)])
        with ((emit b1 ++ moved ++ kb) ++ [Store; Pop_expression] ++ [Jump_label (next_label c2); Identifier (variable_of c3)]) by (rewrite <- !app_assoc; reflexivity).
      rewrite (run_app vb _ _ _ _ _ _ _ X3). rewrite (store_run _ _ _ _ _ _ _ TT Y2). reflexivity.
    + eapply agree_trans; [apply agree_update; lia| |exact (le_n _)].
      eapply agree_trans; [eapply agree_less; [exact G2|lia]|exact G1|lia].
    + apply identifier_yields, TT.
  - (* second operand *)
    subst oa. pose proof (pushes1 _ _ _ _ _ _ _ _ (cast_tail t) (cast_means t ta w) (A w eq_refl) eq_refl) as P.
    destruct (emit_run _ _ _ _ m1 P A1) as (c0 & m2 & X2 & G2 & Y2 & _). rewrite Ea in X2.
    exists (Location (variable_of c3)), (update m2 (variable_of c3) (convert t w mod 2 ^ width t)). split; [exact I|]. split; [|split].
    + intro s. rewrite (run_app vb _ _ _ _ _ _ _ (Xx s)). cbn [app BranchModel.run]. rewrite Zx. cbn [negb Bool.eqb].
      cbn [LowerModel.step rbind fst snd].
      assert (X3 : run (emit a1 ++ kept) None (Location (variable_of c3) :: s) m1 = Next (c0 :: Location (variable_of c3) :: s, m2)).
      { specialize (X2 (Location (variable_of c3) :: s)). unfold kept. destruct ka; [|exact X2].
        rewrite app_nil_r in X2. rewrite (run_app vb _ _ _ _ _ _ _ X2). reflexivity. }
      match goal with |- run (emit a1 ++ kept ++ Store :: Pop_expression :: ?r) _ _ _ = _ =>
        replace (emit a1 ++ kept ++ Store :: Pop_expression :: r) with ((emit a1 ++ kept) ++ [Store; Pop_expression] ++ r) by (rewrite <- !app_assoc; reflexivity) end.
      rewrite (run_app vb _ _ _ _ _ _ _ X3). rewrite (store_run _ _ _ _ _ _ _ TT Y2). cbn [BranchModel.run].
      destruct (Nat.eqb_spec (next_label c1) (next_label c2)); [lia|].
      rewrite (run_skip vb (emit b1)) by (rewrite Lb; intro K; apply Sb in K; cbn in K; lia).
      rewrite (run_skip vb moved) by (rewrite straight_labels; auto). rewrite (run_skip vb kb) by (rewrite straight_labels; auto).
      cbn [BranchModel.run]. rewrite Nat.eqb_refl. reflexivity.
    + eapply agree_trans; [apply agree_update; lia| |exact (le_n _)].
      eapply agree_trans; [eapply agree_less; [exact G2|lia]|exact G1|lia].
    + apply identifier_yields, TT.
Qed.

Ltac value_of E e := destruct (beval ty env e) as [[? ?]|]; [cbn [bind fst snd] in E|discriminate E].

Theorem generate_pushes : forall e c q c' t v, holds_below first ty env m ->
  variables_below first e -> blits_ok e -> no_constant_after_comma e -> beval ty env e = Some (t, v) ->
  generate e c = Done (q, c') -> grows c' final -> pushes (variable_of c) q t v.
Proof.
  intros e c q c' t v HB. revert c q c' t v.
  induction e as [t0 p|x|o a IHa|t0 a IHa|o a IHa b IHb|o a IHa b IHb|o a IHa b IHb|a IHa b IHb|a IHa b IHb|a IHa b IHb|a IHa b IHb|a IHa b IHb|x IHx a IHa b IHb];
    intros c q c' t v W LO NC EV H G; cbn [BranchModel.generate variables_below blits_ok no_constant_after_comma beval] in *.
  - injection H as <- <-. injection EV as <- <-. split; [reflexivity|]. split; [exact LO|]. split; reflexivity.
  - injection H as <- <-. injection EV as <- <-. destruct (HB x W) as [O M]. split; [reflexivity|]. split; [exact O|]. cbn [literal code].
    intros m0 A. exists (Location x), m0. split; [exact I|]. split; [reflexivity|]. split; [apply agree_refl|].
    split; cbn [operand_bits contents]; [rewrite program_type by exact W; apply bits_width|]. rewrite A by exact W. exact M.
  - gen_inv H. injection H as <- <-. value_of EV a. pose proof (IHa _ _ _ _ _ W LO NC eq_refl E G) as P.
    assert (K : un_sem o i z = (t, v)) by congruence.
    pose proof (pushes1 _ _ _ _ _ _ _ _ (un_tail o) (un_means o i z) P E0) as Q. rewrite K in Q. exact Q.
  - gen_inv H. injection H as <- <-. value_of EV a. pose proof (IHa _ _ _ _ _ W LO NC eq_refl E G) as P. injection EV as <- <-.
    exact (pushes1 _ _ _ _ _ _ _ _ (cast_tail t0) (cast_means t0 i z) P eq_refl).
  - gen_inv H. injection H as <- <-. value_of EV a. value_of EV b. pose proof (generate_shaped _ _ _ _ _ _ (proj1 W) E) as Sa. pose proof (generate_shaped _ _ _ _ _ _ (proj2 W) E0) as Sb.
    pose proof (IHa _ _ _ _ _ (proj1 W) (proj1 LO) (proj1 NC) eq_refl E (grows_trans _ _ _ (proj1 Sb) G)) as Pa.
    pose proof (IHb _ _ _ _ _ (proj2 W) (proj2 LO) (proj2 NC) eq_refl E0 G) as Pb.
    exact (pushes2 _ _ _ _ _ _ _ _ _ _ _ _ (arith_tail o) (arith_means o _ _ _ _ _ _ EV) Sa Pa Pb E1).
  - gen_inv H. injection H as <- <-. value_of EV a. value_of EV b. pose proof (generate_shaped _ _ _ _ _ _ (proj1 W) E) as Sa. pose proof (generate_shaped _ _ _ _ _ _ (proj2 W) E0) as Sb.
    pose proof (IHa _ _ _ _ _ (proj1 W) (proj1 LO) (proj1 NC) eq_refl E (grows_trans _ _ _ (proj1 Sb) G)) as Pa.
    pose proof (IHb _ _ _ _ _ (proj2 W) (proj2 LO) (proj2 NC) eq_refl E0 G) as Pb. injection EV as <- <-.
    exact (pushes2 _ _ _ _ _ _ _ _ _ _ _ _ (cmp_tail o) (cmp_means o _ _ _ _) Sa Pa Pb E1).
  - gen_inv H. injection H as <- <-. value_of EV a. value_of EV b. pose proof (generate_shaped _ _ _ _ _ _ (proj1 W) E) as Sa. pose proof (generate_shaped _ _ _ _ _ _ (proj2 W) E0) as Sb.
    pose proof (IHa _ _ _ _ _ (proj1 W) (proj1 LO) (proj1 NC) eq_refl E (grows_trans _ _ _ (proj1 Sb) G)) as Pa.
    pose proof (IHb _ _ _ _ _ (proj2 W) (proj2 LO) (proj2 NC) eq_refl E0 G) as Pb.
    exact (pushes2 _ _ _ _ _ _ _ _ _ _ _ _ (bit_tail o) (bit_means o _ _ _ _ _ _ EV) Sa Pa Pb E1).
  - gen_inv H. injection H as <- <-. value_of EV a. value_of EV b. pose proof (generate_shaped _ _ _ _ _ _ (proj1 W) E) as Sa. pose proof (generate_shaped _ _ _ _ _ _ (proj2 W) E0) as Sb.
    pose proof (IHa _ _ _ _ _ (proj1 W) (proj1 LO) (proj1 NC) eq_refl E (grows_trans _ _ _ (proj1 Sb) G)) as Pa.
    pose proof (IHb _ _ _ _ _ (proj2 W) (proj2 LO) (proj2 NC) eq_refl E0 G) as Pb.
    exact (pushes2 _ _ _ _ _ _ _ _ _ _ _ _ (shift_tail true) (shl_means _ _ _ _ _ _ EV) Sa Pa Pb E1).
  - gen_inv H. injection H as <- <-. value_of EV a. value_of EV b. pose proof (generate_shaped _ _ _ _ _ _ (proj1 W) E) as Sa. pose proof (generate_shaped _ _ _ _ _ _ (proj2 W) E0) as Sb.
    pose proof (IHa _ _ _ _ _ (proj1 W) (proj1 LO) (proj1 NC) eq_refl E (grows_trans _ _ _ (proj1 Sb) G)) as Pa.
    pose proof (IHb _ _ _ _ _ (proj2 W) (proj2 LO) (proj2 NC) eq_refl E0 G) as Pb.
    exact (pushes2 _ _ _ _ _ _ _ _ _ _ _ _ (shift_tail false) (shr_means _ _ _ _ _ _ EV) Sa Pa Pb E1).
  - gen_inv H. injection H as <- <-. value_of EV a. pose proof (generate_shaped _ _ _ _ _ _ (proj1 W) E) as Sa. pose proof (generate_shaped _ _ _ _ _ _ (proj2 W) E0) as Sb.
    destruct NC as (NCa & NCb & CB).
    pose proof (IHa _ _ _ _ _ (proj1 W) (proj1 LO) NCa eq_refl E (grows_trans _ _ _ (proj1 Sb) G)) as Pa.
    pose proof (IHb _ _ _ _ _ (proj2 W) (proj2 LO) NCb EV E0 G) as Pb.
    pose proof (generate_const _ _ _ _ _ _ E0 CB) as NL.
    assert (L : (variable_of c <= variable_of c0 /\ first <= variable_of c)%nat).
    { split; [apply grows_variable, Sa|]. unfold BranchModel.variable_of. lia. }
    split; [apply Pb|]. split; [apply Pb|]. cbn [literal code]. intros m0 A0.
    destruct (emit_run _ _ _ _ m0 Pa A0) as (ca & m1 & Xa & G1 & _).
    assert (A1 : agree first m1 m) by (eapply agree_trans; [eapply agree_less; [exact G1|lia]|exact A0|lia]).
    destruct (emit_run _ _ _ _ m1 Pb A1) as (cb & m2 & Xb & G2 & Yb & Rb). exists cb, m2. split; [apply Rb, NL|]. split; [|split; [|exact Yb]].
    + intro s. rewrite (run_app vb _ _ _ _ _ _ _ (Xa s)). cbn [app BranchModel.run LowerModel.step rbind fst snd].
      rewrite (run_app vb _ _ _ _ _ _ _ (Xb s)). reflexivity.
    + eapply agree_trans; [eapply agree_less; [exact G2|lia]|exact G1|lia].
  - gen_inv H. destruct (beval ty env a) as [[ta va]|] eqn:EA; [cbn [bind fst snd] in EV|discriminate EV].
    pose proof (generate_shaped _ _ _ _ _ _ (proj1 W) E) as Sa. pose proof (generate_shaped _ _ _ _ _ _ (proj2 W) E0) as Sb.
    assert (Gb : grows c1 c').
    { unfold lower_and in H. destruct (literal e) as [l|]; [destruct (literal e0) as [r|]|].
      - unfold fold_land in H. cbn [obind] in H. injection H as <- <-. apply grows_refl.
      - injection H as <- <-. eapply grows_trans; [apply grows_new|apply grows_label].
      - injection H as <- <-. eapply grows_trans; [apply grows_new|apply grows_label]. }
    pose proof (grows_trans _ _ _ Gb G) as G1.
    pose proof (IHa _ _ _ _ _ (proj1 W) (proj1 LO) (proj1 NC) eq_refl E (grows_trans _ _ _ (grows_trans _ _ _ (grows_label _) (proj1 Sb)) G1)) as Pa.
    assert (Pb : forall w, option_map snd (beval ty env b) = Some w -> pushes (variable_of c0) e0 (btype ty b) w).
    { intros w Q. destruct (beval ty env b) as [[tb0 w0]|] eqn:EB; [|discriminate]. injection Q as <-.
      pose proof (IHb _ _ _ _ _ (proj2 W) (proj2 LO) (proj2 NC) eq_refl E0 G1) as Pb. 
      destruct (generate_typed _ _ _ _ _ _ E0) as [R _]. pose proof Pb as [R' _]. rewrite R in R'. subst tb0. exact Pb. }
    assert (LV : logical_value false 1 0 va (option_map snd (beval ty env b)) = Some v /\ t = S32).
    { unfold logical_value. destruct (va =? 0); cbn [negb Bool.eqb]; [split; congruence|].
      destruct (beval ty env b) as [[tb w]|]; [|discriminate]. cbn [bind snd option_map] in *. destruct (w =? 0); cbn [negb Bool.eqb]; split; congruence. }
    destruct LV as [LV ->].
    assert (K : literal e = None \/ literal e0 = None ->
       pushes (variable_of c) (mkexpr (emit e ++ [Jump_if false (next_label c0)] ++ emit e0 ++ [Jump_if false (next_label c0)] ++ set_temporary (variable_of c1) 1 ++ [Jump (next_label c1)] ++
                    [Jump_label (next_label c0)] ++ set_temporary (variable_of c1) 0 ++ [Jump_label (next_label c1)] ++ [Identifier (variable_of c1)]) S32 None) S32 v).
    { intro D. eapply logical_pushes; eauto. unfold lower_and in H. destruct (literal e) as [l|]; [destruct (literal e0) as [r|]|].
      - destruct D; discriminate.
      - injection H as _ <-. exact G.
      - injection H as _ <-. exact G. }
    unfold lower_and in H. destruct (literal e) as [l|] eqn:LA; [destruct (literal e0) as [r|] eqn:LB|].
    + unfold fold_land in H. cbn [obind] in H. injection H as <- <-. destruct Pa as (_ & _ & Pa). rewrite LA in Pa. destruct Pa as [_ Va].
      assert (Q : b2z (negb (value l =? 0) && negb (value r =? 0)) = v).
      { rewrite Va. unfold logical_value in LV. destruct (va =? 0); cbn [negb Bool.eqb andb] in *; [injection LV as <-; reflexivity|].
        destruct (option_map snd (beval ty env b)) as [w|]; [|discriminate]. specialize (Pb w eq_refl). destruct Pb as (_ & _ & Pb). rewrite LB in Pb.
        destruct Pb as [_ Vb]. rewrite Vb. injection LV as <-. destruct (w =? 0); reflexivity. }
      split; [reflexivity|]. rewrite <- Q. split; [|cbn [literal literal_expr]; split; [reflexivity|apply fold_land_ok]].
      apply object_of; [|discriminate]. unfold in_range. destruct (_ && _); cbn; lia.
    + injection H as <- <-. apply K. right. reflexivity.
    + injection H as <- <-. apply K. left. reflexivity.
  - gen_inv H. destruct (beval ty env a) as [[ta va]|] eqn:EA; [cbn [bind fst snd] in EV|discriminate EV].
    pose proof (generate_shaped _ _ _ _ _ _ (proj1 W) E) as Sa. pose proof (generate_shaped _ _ _ _ _ _ (proj2 W) E0) as Sb.
    assert (Gb : grows c1 c').
    { unfold lower_or in H. destruct (literal e) as [l|]; [destruct (literal e0) as [r|]|].
      - unfold fold_lor in H. cbn [obind] in H. injection H as <- <-. apply grows_refl.
      - injection H as <- <-. eapply grows_trans; [apply grows_new|apply grows_label].
      - injection H as <- <-. eapply grows_trans; [apply grows_new|apply grows_label]. }
    pose proof (grows_trans _ _ _ Gb G) as G1.
    pose proof (IHa _ _ _ _ _ (proj1 W) (proj1 LO) (proj1 NC) eq_refl E (grows_trans _ _ _ (grows_trans _ _ _ (grows_label _) (proj1 Sb)) G1)) as Pa.
    assert (Pb : forall w, option_map snd (beval ty env b) = Some w -> pushes (variable_of c0) e0 (btype ty b) w).
    { intros w Q. destruct (beval ty env b) as [[tb0 w0]|] eqn:EB; [|discriminate]. injection Q as <-.
      pose proof (IHb _ _ _ _ _ (proj2 W) (proj2 LO) (proj2 NC) eq_refl E0 G1) as Pb. 
      destruct (generate_typed _ _ _ _ _ _ E0) as [R _]. pose proof Pb as [R' _]. rewrite R in R'. subst tb0. exact Pb. }
    assert (LV : logical_value true 0 1 va (option_map snd (beval ty env b)) = Some v /\ t = S32).
    { unfold logical_value. destruct (va =? 0); cbn [negb Bool.eqb]; [|split; congruence].
      destruct (beval ty env b) as [[tb w]|]; [|discriminate]. cbn [bind snd option_map] in *. destruct (w =? 0); cbn [negb Bool.eqb]; split; congruence. }
    destruct LV as [LV ->].
    assert (K : literal e = None \/ literal e0 = None ->
       pushes (variable_of c) (mkexpr (emit e ++ [Jump_if true (next_label c0)] ++ emit e0 ++ [Jump_if true (next_label c0)] ++ set_temporary (variable_of c1) 0 ++ [Jump (next_label c1)] ++
                    [Jump_label (next_label c0)] ++ set_temporary (variable_of c1) 1 ++ [Jump_label (next_label c1)] ++ [Identifier (variable_of c1)]) S32 None) S32 v).
    { intro D. eapply logical_pushes; eauto. unfold lower_or in H. destruct (literal e) as [l|]; [destruct (literal e0) as [r|]|].
      - destruct D; discriminate.
      - injection H as _ <-. exact G.
      - injection H as _ <-. exact G. }
    unfold lower_or in H. destruct (literal e) as [l|] eqn:LA; [destruct (literal e0) as [r|] eqn:LB|].
    + unfold fold_lor in H. cbn [obind] in H. injection H as <- <-. destruct Pa as (_ & _ & Pa). rewrite LA in Pa. destruct Pa as [_ Va].
      assert (Q : b2z (negb (value l =? 0) || negb (value r =? 0)) = v).
      { rewrite Va. unfold logical_value in LV. destruct (va =? 0); cbn [negb Bool.eqb orb] in *; [|injection LV as <-; reflexivity].
        destruct (option_map snd (beval ty env b)) as [w|]; [|discriminate]. specialize (Pb w eq_refl). destruct Pb as (_ & _ & Pb). rewrite LB in Pb.
        destruct Pb as [_ Vb]. rewrite Vb. injection LV as <-. destruct (w =? 0); reflexivity. }
      split; [reflexivity|]. rewrite <- Q. split; [|cbn [literal literal_expr]; split; [reflexivity|apply fold_lor_ok]].
      apply object_of; [|discriminate]. unfold in_range. destruct (_ || _); cbn; lia.
    + injection H as <- <-. apply K. right. reflexivity.
    + injection H as <- <-. apply K. left. reflexivity.
  - destruct W as (Wx & Wa & Wb). destruct LO as (LOx & LOa & LOb). destruct NC as (NCx & NCa & NCb).
    apply obind_inv in H. destruct H as ([x1 c1] & E & H).
    destruct (beval ty env x) as [[tx vx]|] eqn:EX; [cbn [bind fst snd] in EV|discriminate EV].
    assert (EV' : exists w, (if vx =? 0 then option_map snd (beval ty env b) else option_map snd (beval ty env a)) = Some w /\
       t = usual_int (btype ty a) (btype ty b) /\ v = convert t w).
    { destruct (vx =? 0); [destruct (beval ty env b) as [[t1 w]|]|destruct (beval ty env a) as [[t1 w]|]]; try discriminate;
        cbn [bind snd option_map] in *; exists w; injection EV as <- <-; auto. }
    clear EV. destruct EV' as (w & EV & Et & Ev).
    pose proof (generate_shaped _ _ _ _ _ _ Wx E) as Sx. destruct (literal x1) as [l|] eqn:LX.
    + gen_inv H. pose proof (generate_shaped _ _ _ _ _ _ Wa E0) as Sa. pose proof (generate_shaped _ _ _ _ _ _ Wb E1) as Sb.
      destruct (generate_typed _ _ _ _ _ _ E0) as [Ra _]. destruct (generate_typed _ _ _ _ _ _ E1) as [Rb _].
      unfold select_branch in H. rewrite usual_int_eq, Ra, Rb, <- Et in H. injection H as <- <-.
      pose proof (IHx _ _ _ _ _ Wx LOx NCx eq_refl E (grows_trans _ _ _ (proj1 Sa) (grows_trans _ _ _ (proj1 Sb) G))) as (_ & _ & Px).
      rewrite LX in Px. destruct Px as [_ Vx].
      assert (L : (variable_of c <= variable_of c1 /\ variable_of c1 <= variable_of c0)%nat) by (split; [apply grows_variable, Sx|apply grows_variable, Sa]).
      rewrite Ev. assert (P : exists t1, pushes (variable_of c) (if negb (integer_literal_as_u64 l =? 0) then e else e0) t1 w).
      { rewrite as_u64_zero, Vx. destruct (vx =? 0); cbn [negb].
        - destruct (beval ty env b) as [[t1 w1]|] eqn:EB; [|discriminate]. injection EV as ->. exists t1.
          eapply pushes_less; [eapply IHb; eauto|lia].
        - destruct (beval ty env a) as [[t1 w1]|] eqn:EA; [|discriminate]. injection EV as ->. exists t1.
          eapply pushes_less; [eapply IHa; eauto; eapply grows_trans; [apply Sb|exact G]|lia]. }
      destruct P as [t1 P]. exact (pushes1 _ _ _ _ _ _ _ _ (cast_tail t) (cast_means t t1 w) P eq_refl).
    + gen_inv H. pose proof (generate_shaped _ _ _ _ _ _ Wa E0) as Sa. pose proof (generate_shaped _ _ _ _ _ _ Wb E1) as Sb.
      destruct (generate_typed _ _ _ _ _ _ E0) as [Ra _]. destruct (generate_typed _ _ _ _ _ _ E1) as [Rb _].
      assert (G2 : grows c2 c').
      { pose proof H as H'. unfold lower_conditional in H'. rewrite usual_int_eq in H'.
        destruct (push_cast_expr false _ e) as [a1 ka]. destruct (push_cast_expr false _ e0) as [b1 kb]. injection H' as _ <-. apply grows_new. }
      pose proof (grows_trans _ _ _ G2 G) as Gb. pose proof (grows_trans _ _ _ (grows_label _) (grows_trans _ _ _ (proj1 Sb) Gb)) as Ga.
      pose proof (grows_trans _ _ _ (grows_label _) (grows_trans _ _ _ (proj1 Sa) Ga)) as Gx.
      rewrite Ev, Et. eapply (conditional_pushes c c1 c0 c2 x1 e e0 q c' tx vx (btype ty a) (btype ty b) (option_map snd (beval ty env a)) (option_map snd (beval ty env b)) w); eauto.
      * intros u Q. destruct (beval ty env a) as [[t1 w1]|] eqn:EA; [|discriminate]. injection Q as <-.
        pose proof (IHa _ _ _ _ _ Wa LOa NCa eq_refl E0 Ga) as P. pose proof P as [R' _]. rewrite Ra in R'. subst t1. exact P.
      * intros u Q. destruct (beval ty env b) as [[t1 w1]|] eqn:EB; [|discriminate]. injection Q as <-.
        pose proof (IHb _ _ _ _ _ Wb LOb NCb eq_refl E1 Gb) as P. pose proof P as [R' _]. rewrite Rb in R'. subst t1. exact P.
Qed.
End Semantics.

(** ** Expressions all of whose parts have values are accepted *)
Theorem generate_accepts : forall first ty env m, holds_below first ty env m -> forall e c,
  variables_below first e -> blits_ok e -> no_constant_after_comma e -> all_defined ty env e ->
  exists q c', generate first ty e c = Done (q, c').
Proof.
  intros first ty env m HB.
  assert (Q2 : forall f a b c c1 c2 qa qb ta va tb vb0 t v, tail2 f ->
     means2 first ty c2 f ta va tb vb0 t v ->
     variables_below first a -> variables_below first b -> blits_ok a -> blits_ok b -> no_constant_after_comma a -> no_constant_after_comma b ->
     beval ty env a = Some (ta, va) -> beval ty env b = Some (tb, vb0) ->
     generate first ty a c = Done (qa, c1) -> generate first ty b c1 = Done (qb, c2) -> exists e, f qa qb = Done e).
  { intros f a b c c1 c2 qa qb ta va tb vb0 t v F M Wa Wb La Lb Na Nb Ea Eb Ga Gb.
    pose proof (generate_shaped _ _ _ _ _ _ Wb Gb) as Sb.
    eapply (accepted2 first ty c2 m); [exact F|exact M| |].
    - exact (generate_pushes first ty c2 env m a c qa c1 ta va HB Wa La Na Ea Ga (proj1 Sb)).
    - exact (generate_pushes first ty c2 env m b c1 qb c2 tb vb0 HB Wb Lb Nb Eb Gb (grows_refl c2)). }
  induction e as [t0 p|x|o a IHa|t0 a IHa|o a IHa b IHb|o a IHa b IHb|o a IHa b IHb|a IHa b IHb|a IHa b IHb|a IHa b IHb|a IHa b IHb|a IHa b IHb|x IHx a IHa b IHb];
    intros c W LO NC D; cbn [BranchModel.generate variables_below blits_ok no_constant_after_comma all_defined beval] in *.
  - eauto.
  - eauto.
  - destruct D as [D Da]. destruct (IHa c W LO NC Da) as (qa & ca & E). rewrite E. cbn [obind].
    destruct (beval ty env a) as [[ta va]|] eqn:EA; [|cbn in D; congruence].
    destruct (accepted1 first ty ca m (lower_un o) _ qa ta va _ _ (un_tail o) (un_means first ty ca o ta va)
       (generate_pushes first ty ca env m a c qa ca ta va HB W LO NC EA E (grows_refl ca))) as (e & ->). cbn [obind]. eauto.
  - destruct D as [D Da]. destruct (IHa c W LO NC Da) as (qa & ca & E). rewrite E. cbn [obind]. eauto.
  - destruct D as (D & Da & Db). destruct W as [Wa Wb]. destruct LO as [La Lb]. destruct NC as [Na Nb].
    destruct (IHa c Wa La Na Da) as (qa & ca & Ea). destruct (IHb ca Wb Lb Nb Db) as (qb & cb & Eb). rewrite Ea. cbn [obind]. rewrite Eb. cbn [obind].
    destruct (beval ty env a) as [[ta va]|] eqn:EA; [|cbn in D; congruence]. destruct (beval ty env b) as [[tb vb0]|] eqn:EB; [|cbn in D; congruence].
    cbn [bind] in D. destruct (arith_value o (ta, va) (tb, vb0)) as [[t v]|] eqn:EV; [|congruence].
    destruct (Q2 _ _ _ _ _ _ _ _ _ _ _ _ _ _ (arith_tail o) (arith_means first ty cb o _ _ _ _ _ _ EV) Wa Wb La Lb Na Nb EA EB Ea Eb) as (e & ->). cbn [obind]. eauto.
  - destruct D as (D & Da & Db). destruct W as [Wa Wb]. destruct LO as [La Lb]. destruct NC as [Na Nb].
    destruct (IHa c Wa La Na Da) as (qa & ca & Ea). destruct (IHb ca Wb Lb Nb Db) as (qb & cb & Eb). rewrite Ea. cbn [obind]. rewrite Eb. cbn [obind].
    destruct (beval ty env a) as [[ta va]|] eqn:EA; [|cbn in D; congruence]. destruct (beval ty env b) as [[tb vb0]|] eqn:EB; [|cbn in D; congruence].
    destruct (Q2 _ _ _ _ _ _ _ _ _ _ _ _ _ _ (cmp_tail o) (cmp_means first ty cb o _ _ _ _) Wa Wb La Lb Na Nb EA EB Ea Eb) as (e & ->). cbn [obind]. eauto.
  - destruct D as (D & Da & Db). destruct W as [Wa Wb]. destruct LO as [La Lb]. destruct NC as [Na Nb].
    destruct (IHa c Wa La Na Da) as (qa & ca & Ea). destruct (IHb ca Wb Lb Nb Db) as (qb & cb & Eb). rewrite Ea. cbn [obind]. rewrite Eb. cbn [obind].
    destruct (beval ty env a) as [[ta va]|] eqn:EA; [|cbn in D; congruence]. destruct (beval ty env b) as [[tb vb0]|] eqn:EB; [|cbn in D; congruence].
    cbn [bind] in D. destruct (bit_value o (ta, va) (tb, vb0)) as [[t v]|] eqn:EV; [|congruence].
    destruct (Q2 _ _ _ _ _ _ _ _ _ _ _ _ _ _ (bit_tail o) (bit_means first ty cb o _ _ _ _ _ _ EV) Wa Wb La Lb Na Nb EA EB Ea Eb) as (e & ->). cbn [obind]. eauto.
  - destruct D as (D & Da & Db). destruct W as [Wa Wb]. destruct LO as [La Lb]. destruct NC as [Na Nb].
    destruct (IHa c Wa La Na Da) as (qa & ca & Ea). destruct (IHb ca Wb Lb Nb Db) as (qb & cb & Eb). rewrite Ea. cbn [obind]. rewrite Eb. cbn [obind].
    destruct (beval ty env a) as [[ta va]|] eqn:EA; [|cbn in D; congruence]. destruct (beval ty env b) as [[tb vb0]|] eqn:EB; [|cbn in D; congruence].
    cbn [bind] in D. destruct (shl_value (ta, va) (tb, vb0)) as [[t v]|] eqn:EV; [|congruence].
    destruct (Q2 _ _ _ _ _ _ _ _ _ _ _ _ _ _ (shift_tail true) (shl_means first ty cb _ _ _ _ _ _ EV) Wa Wb La Lb Na Nb EA EB Ea Eb) as (e & ->). cbn [obind]. eauto.
  - destruct D as (D & Da & Db). destruct W as [Wa Wb]. destruct LO as [La Lb]. destruct NC as [Na Nb].
    destruct (IHa c Wa La Na Da) as (qa & ca & Ea). destruct (IHb ca Wb Lb Nb Db) as (qb & cb & Eb). rewrite Ea. cbn [obind]. rewrite Eb. cbn [obind].
    destruct (beval ty env a) as [[ta va]|] eqn:EA; [|cbn in D; congruence]. destruct (beval ty env b) as [[tb vb0]|] eqn:EB; [|cbn in D; congruence].
    cbn [bind] in D. destruct (shr_value (ta, va) (tb, vb0)) as [[t v]|] eqn:EV; [|congruence].
    destruct (Q2 _ _ _ _ _ _ _ _ _ _ _ _ _ _ (shift_tail false) (shr_means first ty cb _ _ _ _ _ _ EV) Wa Wb La Lb Na Nb EA EB Ea Eb) as (e & ->). cbn [obind]. eauto.
  - destruct D as (D & Da & Db). destruct W as [Wa Wb]. destruct LO as [La Lb]. destruct NC as (Na & Nb & _).
    destruct (IHa c Wa La Na Da) as (qa & ca & Ea). destruct (IHb ca Wb Lb Nb Db) as (qb & cb & Eb). rewrite Ea. cbn [obind]. rewrite Eb. cbn [obind]. eauto.
  - destruct D as (D & Da & Db). destruct W as [Wa Wb]. destruct LO as [La Lb]. destruct NC as (Na & Nb).
    destruct (IHa c Wa La Na Da) as (qa & ca & Ea). destruct (IHb (new_label ca) Wb Lb Nb Db) as (qb & cb & Eb). rewrite Ea. cbn [obind]. rewrite Eb. cbn [obind].
    unfold lower_and. destruct (literal qa); [destruct (literal qb)|]; unfold fold_land; cbn [obind]; eauto.
  - destruct D as (D & Da & Db). destruct W as [Wa Wb]. destruct LO as [La Lb]. destruct NC as (Na & Nb).
    destruct (IHa c Wa La Na Da) as (qa & ca & Ea). destruct (IHb (new_label ca) Wb Lb Nb Db) as (qb & cb & Eb). rewrite Ea. cbn [obind]. rewrite Eb. cbn [obind].
    unfold lower_or. destruct (literal qa); [destruct (literal qb)|]; unfold fold_lor; cbn [obind]; eauto.
  - destruct D as (D & Dx & Da & Db). destruct W as (Wx & Wa & Wb). destruct LO as (Lx & La & Lb). destruct NC as (Nx & Na & Nb).
    destruct (IHx c Wx Lx Nx Dx) as (qx & cx & Ex). rewrite Ex. cbn [obind]. destruct (literal qx) as [l|].
    + destruct (IHa cx Wa La Na Da) as (qa & ca & Ea). destruct (IHb ca Wb Lb Nb Db) as (qb & cb & Eb). rewrite Ea. cbn [obind]. rewrite Eb. cbn [obind].
      unfold select_branch. rewrite usual_int_eq. eauto.
    + destruct (IHa (new_label cx) Wa La Na Da) as (qa & ca & Ea). destruct (IHb (new_label ca) Wb Lb Nb Db) as (qb & cb & Eb). rewrite Ea. cbn [obind]. rewrite Eb. cbn [obind].
      unfold lower_conditional. rewrite usual_int_eq. destruct (push_cast_expr false _ qa). destruct (push_cast_expr false _ qb). eauto.
Qed.

(** ** Jumps go forward *)
Fixpoint forward (c : list ir) : Prop :=
  match c with
  | [] => True
  | i :: c => match i with Jump n | Jump_if _ n => In (Jump_label n) c | _ => True end /\ forward c
  end.

Lemma forward_app : forall a b, forward a -> forward b -> forward (a ++ b).
Proof.
  induction a as [|i a IH]; intros b A B; [exact B|]. cbn [app forward] in *. destruct A as [Ai A]. split; [|apply IH; assumption].
  destruct i; try exact I; apply in_app_iff; left; exact Ai.
Qed.
Lemma straight_forward : forall c, Forall straight c -> forward c.
Proof. intros c H. induction H as [|i c Hi _ IH]; [exact I|]. split; [destruct i; cbn in Hi; tauto|exact IH]. Qed.
Lemma part_forward : forall a p p', part a a p p' -> forward (emit a) -> forward p.
Proof. intros a p p' H F. unfold part, emit in *. destruct (literal a); [destruct H as [_ [l' ->]]; cbn; auto|destruct H as [-> _]; exact F]. Qed.

Lemma forward2 : forall f a b e, tail2 f -> forward (emit a) -> forward (emit b) -> f a b = Done e -> forward (emit e).
Proof.
  intros f a b e F A B H. specialize (F a b a b (alike_refl a) (alike_refl b)). rewrite H in F. destruct F as [_ F].
  unfold emit at 1. destruct (literal e) as [l|]; [cbn; auto|]. destruct (F eq_refl) as (pa & pb & pa' & pb' & T & C & _ & Pa & Pb & S).
  rewrite C. apply forward_app; [eapply part_forward; eassumption|]. apply forward_app; [eapply part_forward; eassumption|apply straight_forward, S].
Qed.
Lemma forward1 : forall f a e, tail1 f -> forward (emit a) -> f a = Done e -> forward (emit e).
Proof.
  intros f a e F A H. specialize (F a a (alike_refl a)). rewrite H in F. destruct F as (_ & LL & F).
  unfold emit at 1. destruct (literal e) as [l|]; [cbn; auto|].
  assert (LA : literal a = None) by (destruct (literal a); [exfalso; apply LL; congruence|reflexivity]).
  destruct (F eq_refl) as (T & C & _ & S). unfold emit in A. rewrite LA in A. rewrite C. apply forward_app; [exact A|apply straight_forward, S].
Qed.

Lemma forward_jump : forall i c, (match i with Jump n | Jump_if _ n => In (Jump_label n) c | _ => True end) -> forward c -> forward ([i] ++ c).
Proof. intros i c H F. split; assumption. Qed.

Lemma logical_forward : forall a b on n1 n2 x y z, forward (emit a) -> forward (emit b) ->
  forward (emit a ++ [Jump_if on n1] ++ emit b ++ [Jump_if on n1] ++ set_temporary z x ++ [Jump n2] ++
       [Jump_label n1] ++ set_temporary z y ++ [Jump_label n2] ++ [Identifier z]).
Proof.
  intros a b on n1 n2 x y z A B. apply forward_app; [exact A|]. apply forward_jump.
  { apply in_app_iff. right. cbn. tauto. }
  apply forward_app; [exact B|]. cbn. tauto.
Qed.

Theorem generate_forward : forall first ty e c q c', generate first ty e c = Done (q, c') -> forward (emit q).
Proof.
  intros first ty.
  induction e as [t0 p|x|o a IHa|t0 a IHa|o a IHa b IHb|o a IHa b IHb|o a IHa b IHb|a IHa b IHb|a IHa b IHb|a IHa b IHb|a IHa b IHb|a IHa b IHb|x IHx a IHa b IHb];
    intros c q c' H; cbn [BranchModel.generate] in *.
  - injection H as <- <-. cbn. auto.
  - injection H as <- <-. cbn. auto.
  - gen_inv H. injection H as <- <-. eapply forward1; [apply (un_tail o)|eapply IHa; eassumption|exact E0].
  - gen_inv H. injection H as <- <-. eapply forward1; [apply (cast_tail t0)|eapply IHa; eassumption|reflexivity].
  - gen_inv H. injection H as <- <-. eapply forward2; [apply (arith_tail o)|eapply IHa; eassumption|eapply IHb; eassumption|exact E1].
  - gen_inv H. injection H as <- <-. eapply forward2; [apply (cmp_tail o)|eapply IHa; eassumption|eapply IHb; eassumption|exact E1].
  - gen_inv H. injection H as <- <-. eapply forward2; [apply (bit_tail o)|eapply IHa; eassumption|eapply IHb; eassumption|exact E1].
  - gen_inv H. injection H as <- <-. eapply forward2; [apply (shift_tail true)|eapply IHa; eassumption|eapply IHb; eassumption|exact E1].
  - gen_inv H. injection H as <- <-. eapply forward2; [apply (shift_tail false)|eapply IHa; eassumption|eapply IHb; eassumption|exact E1].
  - gen_inv H. injection H as <- <-. rewrite emit_none. apply forward_app; [eapply IHa; eassumption|]. split; [exact I|].
    apply forward_app; [eapply IHb; eassumption|]. cbn. auto.
  - gen_inv H. unfold lower_and in H. destruct (literal e) as [l|]; [destruct (literal e0) as [r|]|].
    + unfold fold_land in H. cbn [obind] in H. injection H as <- <-. cbn. auto.
    + injection H as <- <-. rewrite emit_none. apply logical_forward; [eapply IHa|eapply IHb]; eassumption.
    + injection H as <- <-. rewrite emit_none. apply logical_forward; [eapply IHa|eapply IHb]; eassumption.
  - gen_inv H. unfold lower_or in H. destruct (literal e) as [l|]; [destruct (literal e0) as [r|]|].
    + unfold fold_lor in H. cbn [obind] in H. injection H as <- <-. cbn. auto.
    + injection H as <- <-. rewrite emit_none. apply logical_forward; [eapply IHa|eapply IHb]; eassumption.
    + injection H as <- <-. rewrite emit_none. apply logical_forward; [eapply IHa|eapply IHb]; eassumption.
  - apply obind_inv in H. destruct H as ([x1 c1] & E & H). pose proof (IHx _ _ _ E) as X. destruct (literal x1) as [l|].
    + gen_inv H. pose proof (IHa _ _ _ E0) as A. pose proof (IHb _ _ _ E1) as B.
      unfold select_branch in H. rewrite usual_int_eq in H. injection H as <- <-.
      eapply forward1; [apply cast_tail| |reflexivity]. destruct (negb _); assumption.
    + gen_inv H. pose proof (IHa _ _ _ E0) as A. pose proof (IHb _ _ _ E1) as B.
      unfold lower_conditional in H. rewrite usual_int_eq in H.
      destruct (push_cast_expr false _ e) as [a1 ka] eqn:Ea. destruct (push_cast_expr false _ e0) as [b1 kb] eqn:Eb.
      assert (Fa : forward (emit a1) /\ Forall straight ka).
      { destruct (push_parts false (usual_int (resolved_type e) (resolved_type e0)) e e (alike_refl e)) as (p & p' & k0 & y & y' & Ey & _ & Ep & _ & P & S & _).
        rewrite Ea in Ey. injection Ey as <- <-. split; [rewrite Ep; eapply part_forward; eassumption|exact S]. }
      assert (Fb : forward (emit b1) /\ Forall straight kb).
      { destruct (push_parts false (usual_int (resolved_type e) (resolved_type e0)) e0 e0 (alike_refl e0)) as (p & p' & k0 & y & y' & Ey & _ & Ep & _ & P & S & _).
        rewrite Eb in Ey. injection Ey as <- <-. split; [rewrite Ep; eapply part_forward; eassumption|exact S]. }
      destruct Fa as [Fa Sa]. destruct Fb as [Fb Sb].
      assert (Kk : Forall straight (match ka with [] => [Nop] | _ => ka end)) by (destruct ka; [repeat constructor|exact Sa]).
      assert (Km : Forall straight (match ka with [] => [] | _ => [Nop] end)) by (destruct ka; repeat constructor).
      set (kept := match ka with [] => [Nop] | _ => ka end) in *. set (moved := match ka with [] => [] | _ => [Nop] end) in *. clearbody kept moved.
      injection H as <- <-. rewrite emit_none. apply forward_app; [exact X|]. split.
      { right. apply in_app_iff. right. apply in_app_iff. right. cbn. tauto. }
      split; [exact I|]. apply forward_app; [exact Fa|]. apply forward_app; [apply straight_forward, Kk|].
      split; [exact I|]. split; [exact I|]. split.
      { right. right. apply in_app_iff. right. apply in_app_iff. right. apply in_app_iff. right. cbn. tauto. }
      split; [exact I|]. split; [exact I|]. apply forward_app; [exact Fb|]. apply forward_app; [apply straight_forward, Km|].
      apply forward_app; [apply straight_forward, Sb|]. cbn. tauto.
Qed.
