(** Proofs about LowerModel.v. *)
From Coq Require Import List ZArith Bool Lia.
From Verif Require Import Base IntTypes CSpec IntModel IntProofs FieldModel FieldSpec FieldProofs LowerSpec LowerModel.
Import ListNotations.
Open Scope Z_scope.

Lemma object_in : forall t v, object_value t v -> in_range t v.
Proof. intros t v [R _]. exact R. Qed.

Lemma object_of : forall t v, in_range t v -> t <> TBool -> object_value t v.
Proof. intros t v R N. split; [exact R|congruence]. Qed.

Lemma convert_object : forall t v, object_value t (convert t v).
Proof.
  intros t v. split; [apply convert_range|]. intros ->. cbn [convert]. destruct (v =? 0); auto.
Qed.

Lemma convert_self : forall t v, object_value t v -> convert t v = v.
Proof.
  intros t v [R B]. destruct (ity_eqb_spec t TBool) as [->|N].
  - destruct (B eq_refl) as [->| ->]; reflexivity.
  - rewrite convert_wrap by auto. apply wrap_t_id, R.
Qed.

Lemma convert_mod : forall t v, t <> TBool -> convert t v mod 2 ^ width t = v mod 2 ^ width t.
Proof. intros t v N. rewrite convert_wrap by auto. apply wrap_t_cong. Qed.

(** The number a word stands for is the value it came from. *)
Lemma number_of : forall t v, in_range t v -> number t (v mod 2 ^ width t) = v.
Proof.
  intros t v R. unfold number. rewrite bits_width, signed_eq. pose proof (width_pos t).
  transitivity (wrap_t t v); [|apply wrap_t_id, R]. unfold wrap_t, wraps, wrapu.
  rewrite Z.mod_mod by (apply Z.pow_nonzero; lia). reflexivity.
Qed.

Section Proofs.
Variable ty : nat -> ity.
Variable m : memory.
Let vb (x : nat) : Z := bits (ty x).
Notation exec := (exec vb).
Notation step := (step vb).

Lemma exec_app : forall a b s m0, exec (a ++ b) s m0 = rbind (exec a s m0) (fun r => exec b (fst r) (snd r)).
Proof.
  induction a as [|i a IH]; intros b s m0; [reflexivity|]. cbn [app LowerModel.exec].
  destruct (step i s m0) as [[s1 m1]| |]; cbn [rbind fst snd]; auto.
Qed.

Lemma exec_app_next : forall a b s s1, exec a s m = Next (s1, m) -> exec (a ++ b) s m = exec b s1 m.
Proof. intros a b s s1 E. rewrite exec_app, E. reflexivity. Qed.

Lemma exec_one : forall i s, exec [i] s m = step i s m.
Proof. intros i s. cbn. destruct (step i s m) as [[s1 m1]| |]; reflexivity. Qed.

(** The operand [c] is the value [v] of type [t]. *)
Definition yields (c : operand) (t : ity) (v : Z) : Prop :=
  operand_bits vb c = width t /\ contents m c = v mod 2 ^ width t.

Definition runtime (c : operand) : Prop := match c with Immediate _ _ => False | _ => True end.

Definition good (e : expr) (t : ity) (v : Z) : Prop :=
  resolved_type e = t /\ object_value t v /\
  match literal e with
  | Some l => lty l = t /\ value l = v
  | None => exists c, (forall s, exec (code e) s m = Next (c :: s, m)) /\ runtime c /\ yields c t v
  end.

Lemma fetch_yields : forall c t v, yields c t v -> fetch vb m (width t) c = Next (v mod 2 ^ width t).
Proof. intros c t v [B C]. unfold fetch. rewrite B, Z.eqb_refl, C. reflexivity. Qed.

Lemma literal_yields : forall l, yields (Immediate (bits (lty l)) (integer_literal_as_u64 l)) (lty l) (value l).
Proof.
  intros l. split; cbn [operand_bits contents]; rewrite bits_width; [reflexivity|].
  unfold integer_literal_as_u64. rewrite read_value. unfold wrapu.
  apply mod_mod_pow. destruct (lty l); cbn; lia.
Qed.

Lemma good_emit : forall e t v, good e t v ->
  exists c, (forall s, exec (emit e) s m = Next (c :: s, m)) /\ yields c t v /\ (literal e = None -> runtime c).
Proof.
  intros e t v (T & O & G). unfold emit. destruct (literal e) as [l|].
  - destruct G as [<- <-]. eexists. split; [|split; [apply literal_yields|discriminate]].
    intro s. reflexivity.
  - destruct G as (c & E & R & Y). exists c. auto.
Qed.

(** ** Casts *)

Lemma range_mod_nonneg : forall t v, in_range t v -> signed t = false -> v mod 2 ^ width t = v.
Proof.
  intros t v R S. unfold in_range, minv, maxv in R. rewrite S in R. apply Z.mod_small. lia.
Qed.

Lemma wraps_word : forall t v, in_range t v -> signed t = true -> wraps (width t) (v mod 2 ^ width t) = v.
Proof.
  intros t v R S. pose proof (number_of t v R) as N. unfold number in N. rewrite bits_width, signed_eq, S in N. exact N.
Qed.

Lemma word_zero : forall t v, in_range t v -> (v mod 2 ^ width t =? 0) = (v =? 0).
Proof.
  intros t v R. pose proof (number_of t v R) as N.
  destruct (Z.eqb_spec v 0) as [->|D].
  - rewrite Z.mod_0_l by (apply Z.pow_nonzero; destruct t; cbn; lia). reflexivity.
  - apply Z.eqb_neq. intro E. rewrite E in N. apply D. rewrite <- N. unfold number. 
    destruct t; reflexivity.
Qed.

Lemma sign_word : forall c t n v, yields c t v -> in_range t v -> signed t = true -> runtime c ->
  cast_word vb (Sign_extend (width t) n) m c = Next (Value n (v mod 2 ^ n)).
Proof.
  intros c t n v Y R S RT. pose proof (fetch_yields c t v Y) as F.
  destruct c; cbn [runtime] in RT; try contradiction; cbn [cast_word]; rewrite F; cbn [rbind];
    unfold wrapu; rewrite wraps_word by auto; reflexivity.
Qed.

Lemma zero_word : forall c t n v, yields c t v -> in_range t v -> signed t = false -> runtime c ->
  cast_word vb (Zero_extend (width t) n) m c = Next (Value n (v mod 2 ^ n)).
Proof.
  intros c t n v Y R S RT. pose proof (fetch_yields c t v Y) as F.
  destruct c; cbn [runtime] in RT; try contradiction; cbn [cast_word]; rewrite F; cbn [rbind];
    unfold wrapu; rewrite range_mod_nonneg by auto; reflexivity.
Qed.

Lemma truncate_word : forall c t n v, yields c t v -> 0 <= n <= width t -> runtime c ->
  cast_word vb (Truncate_to n) m c = Next (Value n (v mod 2 ^ n)).
Proof.
  intros c t n v [B C] N RT. 
  assert (E : forall a, a = contents m c -> wrapu n a = v mod 2 ^ n)
    by (intros a ->; rewrite C; unfold wrapu; apply mod_mod_pow; lia).
  destruct c; cbn [runtime] in RT; try contradiction; cbn [cast_word]; rewrite B;
    (destruct (Z.leb_spec n (width t)); [|lia]); rewrite E by reflexivity; reflexivity.
Qed.

Lemma bool_word : forall c t v, yields c t v -> in_range t v ->
  cast_word vb Cast_to_bool m c = Next (Value 8 (convert TBool v)).
Proof.
  intros c t v [B C] R. cbn [cast_word]. rewrite C, word_zero by auto. reflexivity.
Qed.

(** The instructions of a cast of an operand, at the top or one below. *)
Definition casts (c c' : operand) (what to : ity) : Prop :=
  (forall s, exec (cast_code false what to) (c :: s) m = Next (c' :: s, m)) /\
  (forall b s, exec (cast_code true what to) (b :: c :: s) m = Next (b :: c' :: s, m)).

Lemma casts_one : forall k c c' what to,
  (forall lhs, cast_code lhs what to = [Cast lhs k]) -> cast_word vb k m c = Next c' -> casts c c' what to.
Proof.
  intros k c c' what to K E. split; intros; rewrite K, exec_one; cbn [LowerModel.step]; rewrite E; reflexivity.
Qed.

Lemma casts_none : forall c what to, (forall lhs, cast_code lhs what to = []) -> casts c c what to.
Proof. intros c what to K. split; intros; rewrite K; reflexivity. Qed.

Lemma cast_ok : forall c a t v, yields c a v -> object_value a v -> runtime c ->
  exists c', casts c c' a t /\ runtime c' /\ yields c' t (convert t v).
Proof.
  intros c a t v Y O RT. pose proof (object_in _ _ O) as R.
  destruct (ity_eqb_spec t TBool) as [->|NB].
  { exists (Value 8 (convert TBool v)). split; [|split; [exact I|]].
    - apply (casts_one Cast_to_bool); [reflexivity|]. apply (bool_word c a); auto.
    - split; [reflexivity|]. cbn [contents]. symmetry. apply range_mod_nonneg; [apply convert_range|reflexivity]. }
  assert (V : forall n, n = width t -> yields (Value n (v mod 2 ^ n)) t (convert t v)).
  { intros n ->. split; [reflexivity|]. cbn [contents]. rewrite convert_mod by auto. reflexivity. }
  assert (SM : width a = width t -> yields c t (convert t v)).
  { intros W. destruct Y as [B C]. split; [congruence|]. rewrite convert_mod, C, W by auto. reflexivity. }
  assert (X : (exists k, (forall lhs, cast_code lhs a t = [Cast lhs k]) /\
                (k = Sign_extend (width a) (width t) /\ signed a = true \/
                 k = Zero_extend (width a) (width t) /\ signed a = false \/
                 k = Truncate_to (width t) /\ 0 <= width t <= width a)) \/
              (forall lhs, cast_code lhs a t = []) /\ width a = width t).
  { clear - NB. destruct a, t; cbn [cast_code ir_kind_for_cast width signed];
      first [ congruence
            | right; split; [reflexivity|reflexivity]
            | left; eexists; split; [reflexivity|];
              first [left; split; reflexivity | right; left; split; reflexivity | right; right; split; [reflexivity|lia]] ]. }
  destruct X as [(k & K & D)|[K W]].
  - exists (Value (width t) (v mod 2 ^ width t)). split; [|split; [exact I|apply V; reflexivity]].
    apply (casts_one k); [exact K|].
    destruct D as [[-> D]|[[-> D]|[-> D]]];
      [apply sign_word|apply zero_word|apply (truncate_word c a)]; auto.
  - exists c. split; [apply casts_none, K|]. auto.
Qed.

(** ** Operations *)

(** The code of an operand followed, after other code, by that of its cast. *)
Lemma push_ok : forall lhs t e a v, good e a v ->
  resolved_type (fst (push_cast_expr lhs t e)) = t /\
  exists c c',
    (forall s, exec (emit (fst (push_cast_expr lhs t e))) s m = Next (c :: s, m)) /\
    (lhs = false -> forall s, exec (snd (push_cast_expr lhs t e)) (c :: s) m = Next (c' :: s, m)) /\
    (lhs = true -> forall b s, exec (snd (push_cast_expr lhs t e)) (b :: c :: s) m = Next (b :: c' :: s, m)) /\
    yields c' t (convert t v) /\
    (literal e = None -> runtime c').
Proof.
  intros lhs t e a v G. pose proof G as (T & O & L). unfold push_cast_expr.
  destruct (ity_eqb_spec (resolved_type e) t) as [E|E].
  - cbn [fst snd]. split; [exact E|]. destruct (good_emit e a v G) as (c & X & Y & Q).
    exists c, c. rewrite <- T, E in O, Y.
    rewrite convert_self by exact O. split; [exact X|]. split; [reflexivity|]. split; [reflexivity|]. auto.
  - destruct (literal e) as [l|] eqn:LE.
    + cbn [fst snd resolved_type]. split; [reflexivity|]. destruct L as [La Lv].
      set (c := Immediate (bits t) (integer_literal_as_u64 (push_cast t l))). exists c, c.
      split; [|split; [|split; [|split; [|discriminate]]]].
      * intro s. unfold emit. cbn [literal]. rewrite exec_one. cbn [LowerModel.step]. rewrite push_cast_ty. reflexivity.
      * intros _ s. reflexivity.
      * intros _ b s. reflexivity.
      * pose proof (literal_yields (push_cast t l)) as Y. rewrite push_cast_ty in Y.
        rewrite push_cast_value in Y; [rewrite Lv in Y; exact Y|].
        rewrite Lv, La. destruct (ity_eqb_spec a TBool) as [B|B]; [right; apply O, B|left; exact B].
    + cbn [fst snd resolved_type]. split; [reflexivity|]. destruct L as (c & X & R & Y).
      destruct (cast_ok c a t v Y O R) as (c' & [C1 C2] & R' & Y').
      exists c, c'. unfold emit. cbn [literal code]. rewrite T.
      split; [exact X|]. split; [intros ->; exact C1|]. split; [intros ->; exact C2|]. auto.
Qed.

Lemma cast_good : forall t e a v, good e a v -> good (cast_expr t e) t (convert t v).
Proof.
  intros t e a v G. pose proof (push_ok false t e a v G) as (T & c & c' & X & C & _ & Y & R).
  unfold cast_expr. destruct (push_cast_expr false t e) as [e' k] eqn:P. cbn [fst snd] in *.
  split; [exact T|]. split; [apply convert_object|]. cbn [literal code].
  destruct G as (Te & O & L). unfold push_cast_expr in P.
  destruct (ity_eqb_spec (resolved_type e) t) as [E|E].
  - injection P as <- <-. rewrite <- Te, E in O, L. rewrite convert_self by exact O.
    destruct (literal e); [exact L|]. destruct L as (c0 & X0 & R0 & Y0). exists c0. split; [|auto].
    intro s. rewrite app_nil_r. apply X0.
  - destruct (literal e) as [l|] eqn:LE; injection P as <- <-; cbn [literal code].
    + destruct L as [La Lv]. split; [apply push_cast_ty|]. rewrite push_cast_value; [congruence|].
      rewrite Lv, La. destruct (ity_eqb_spec a TBool) as [B|B]; [right; apply O, B|left; exact B].
    + exists c'. split; [|auto]. intro s. unfold emit in X. cbn [literal code] in X.
      rewrite (exec_app_next _ _ _ _ (X s)). apply C. reflexivity.
Qed.

(** What an instruction for a type does to two operands of the type. *)
Definition computes (i : ir) (t : ity) (x y : Z) (u : ity) (w : Z) : Prop :=
  forall a b, yields a t x -> yields b t y ->
  exists c, (forall s, step i (b :: a :: s) m = Next (c :: s, m)) /\ runtime c /\ yields c u w.

Lemma converted_ok : forall op rt a b ta tb va vb w t,
  good a ta va -> good b tb vb -> t = usual_int ta tb ->
  computes (op t) t (convert t va) (convert t vb) (rt t) w -> object_value (rt t) w ->
  exists e, converted op rt a b = Done e /\ good e (rt t) w /\ literal e = None.
Proof.
  intros op rt a b ta tb va vb0 w t Ga Gb Ht K O. unfold converted.
  pose proof Ga as (Ta & _). pose proof Gb as (Tb & _). rewrite Ta, Tb, usual_int_eq, <- Ht.
  pose proof (push_ok true t a ta va Ga) as (_ & ca & ca' & Xa & _ & Ca & Ya & _).
  pose proof (push_ok false t b tb vb0 Gb) as (_ & cb & cb' & Xb & Cb & _ & Yb & _).
  destruct (push_cast_expr true t a) as [a' ka]. destruct (push_cast_expr false t b) as [b' kb]. cbn [fst snd] in *.
  destruct (K ca' cb' Ya Yb) as (c & St & R & Y).
  eexists. split; [reflexivity|]. split; [|reflexivity]. split; [reflexivity|]. split; [exact O|].
  cbn [literal code]. exists c. split; [|auto]. intro s.
  rewrite (exec_app_next _ _ _ _ (Xa s)), (exec_app_next _ _ _ _ (Xb _)),
    (exec_app_next _ _ _ _ (Ca eq_refl _ _)), (exec_app_next _ _ _ _ (Cb eq_refl _)), exec_one. apply St.
Qed.

Definition arithmetic (t : ity) : Prop := t = S32 \/ t = U32 \/ t = S64 \/ t = U64.

Lemma arithmetic_usual : forall a b, arithmetic (usual_int a b).
Proof. exact usual_int_cases. Qed.
Lemma arithmetic_promote : forall t, arithmetic (promote t).
Proof. intro t. unfold arithmetic. destruct t; vm_compute; auto. Qed.
Lemma arithmetic_bool : forall t, arithmetic t -> t <> TBool.
Proof. intros t [->|[->|[->| ->]]]; discriminate. Qed.
Lemma arithmetic_kind : forall t, arithmetic t -> kind_u32 t = width t.
Proof. intros t [->|[->|[->| ->]]]; reflexivity. Qed.
Lemma arithmetic_size4 : forall t, arithmetic t -> (if size t =? 4 then 32 else 64) = width t.
Proof. intros t [->|[->|[->| ->]]]; reflexivity. Qed.
Lemma arithmetic_size8 : forall t, arithmetic t -> (if size t =? 8 then 64 else 32) = width t.
Proof. intros t [->|[->|[->| ->]]]; reflexivity. Qed.

Lemma value_yields : forall t v w, v = w mod 2 ^ width t -> yields (Value (width t) v) t w.
Proof. intros t v w ->. split; reflexivity. Qed.

Lemma binary_ok : forall n f t x y u w r, n = width t ->
  f (x mod 2 ^ width t) (y mod 2 ^ width t) = Next (Value (width u) r) -> r = w mod 2 ^ width u ->
  forall a b, yields a t x -> yields b t y ->
  exists c, (forall s, binary vb n f (b :: a :: s) m = Next (c :: s, m)) /\ runtime c /\ yields c u w.
Proof.
  intros n f t x y u w r -> F E a b A B. exists (Value (width u) r). split; [|split; [exact I|apply value_yields, E]].
  intro s. cbn [binary]. rewrite (fetch_yields a t x A), (fetch_yields b t y B). cbn [rbind]. rewrite F. reflexivity.
Qed.

Lemma truth_value : forall b, truth b = Value (width S32) (b2z b mod 2 ^ width S32).
Proof. intros [|]; reflexivity. Qed.

Lemma wrapu_width : forall t x, wrapu (width t) x = x mod 2 ^ width t.
Proof. reflexivity. Qed.

Lemma divide_ok : forall (rem : bool) t x y w, in_range t x -> in_range t y ->
  arith_sem (if rem then OMod else ODiv) t x y = Some w ->
  divide rem t (x mod 2 ^ width t) (y mod 2 ^ width t) = Next (w mod 2 ^ width t).
Proof.
  intros rm t x y w X Y E. unfold divide. rewrite !number_of by auto.
  assert (Q : (y =? 0) = false /\ representable t (Z.quot x y) = true /\ w = if rm then Z.rem x y else Z.quot x y).
  { destruct rm; cbn [arith_sem] in E; destruct (y =? 0); try discriminate;
      destruct (representable t (Z.quot x y)); try discriminate; injection E as <-; auto. }
  destruct Q as (Y0 & P & ->). rewrite Y0.
  assert (T : type_is_signed t && (x =? - 2 ^ (bits t - 1)) && (y =? -1) = false).
  { destruct (type_is_signed t && (x =? - 2 ^ (bits t - 1)) && (y =? -1)) eqn:T; [|reflexivity].
    apply andb_true_iff in T. destruct T as [T T3]. apply andb_true_iff in T. destruct T as [T1 T2].
    apply Z.eqb_eq in T2, T3. subst x y. unfold representable, maxv in P. rewrite signed_eq in T1. rewrite T1 in P.
    rewrite bits_width in P. change (-1) with (- (1)) in P. rewrite Z.quot_opp_opp, Z.quot_1_r in P by lia.
    apply andb_true_iff in P. destruct P as [_ P]. apply Z.leb_le in P. lia. }
  rewrite T, bits_width. destruct rm; reflexivity.
Qed.

Lemma arith_computes : forall o t x y w, arithmetic t -> in_range t x -> in_range t y ->
  arith_sem o t x y = Some w -> computes (arith_kind o t) t x y t w.
Proof.
  intros o t x y w A X Y E. pose proof (arithmetic_bool t A) as NB. pose proof (width_pos t) as W.
  assert (P : 2 ^ width t <> 0) by (apply Z.pow_nonzero; lia).
  unfold computes. intros a b. destruct o; cbn [arith_kind].
  - injection E as <-. eapply binary_ok; [apply arithmetic_kind, A| |].
    + rewrite arithmetic_kind by exact A. reflexivity.
    + rewrite wrapu_width, convert_mod by auto. symmetry. apply Zplus_mod.
  - injection E as <-. eapply binary_ok; [apply arithmetic_kind, A| |].
    + rewrite arithmetic_kind by exact A. reflexivity.
    + rewrite wrapu_width, convert_mod by auto. symmetry. apply Zminus_mod.
  - injection E as <-. eapply binary_ok; [apply bits_width| |].
    + rewrite bits_width, !number_of by auto. reflexivity.
    + rewrite wrapu_width, convert_mod by auto. reflexivity.
  - eapply binary_ok; [apply bits_width| |].
    + rewrite (divide_ok false t x y w X Y E), bits_width. reflexivity.
    + reflexivity.
  - eapply binary_ok; [apply bits_width| |].
    + rewrite (divide_ok true t x y w X Y E), bits_width. reflexivity.
    + reflexivity.
Qed.

Lemma mod_eqb : forall t x y, in_range t x -> in_range t y -> (x mod 2 ^ width t =? y mod 2 ^ width t) = (x =? y).
Proof.
  intros t x y X Y. destruct (Z.eqb_spec x y) as [->|D]; [apply Z.eqb_refl|].
  apply Z.eqb_neq. intro E. apply D. rewrite <- (number_of t x X), <- (number_of t y Y), E. reflexivity.
Qed.

Lemma cmp_computes : forall o t x y, arithmetic t -> in_range t x -> in_range t y ->
  computes (cmp_kind o t) t x y S32 (cmp_sem o x y).
Proof.
  intros o t x y A X Y. unfold computes. intros a b.
  destruct o; cbn [cmp_kind]; rewrite ?arithmetic_size8 by exact A;
    (eapply binary_ok; [first [reflexivity|apply bits_width]| |]);
    rewrite ?number_of, ?mod_eqb by auto; first [rewrite truth_value; reflexivity|reflexivity].
Qed.

Lemma bit_computes : forall o t x y, arithmetic t -> in_range t x -> in_range t y ->
  computes (bit_kind o t) t x y t (bit_sem o x y).
Proof.
  intros o t x y A X Y. unfold computes. intros a b. pose proof (width_pos t) as W.
  assert (E : bit_sem o (x mod 2 ^ width t) (y mod 2 ^ width t) = bit_sem o x y mod 2 ^ width t).
  { pose proof (Z.mod_pos_bound x (2 ^ width t) ltac:(apply pow2_pos; lia)).
    pose proof (Z.mod_pos_bound y (2 ^ width t) ltac:(apply pow2_pos; lia)).
    rewrite <- !Z.land_ones by lia. destruct o; cbn [bit_sem]; apply Z.bits_inj'; intros k K;
      rewrite ?Z.land_spec, ?Z.lor_spec, ?Z.lxor_spec, ?Z.land_spec;
      destruct (Z.testbit x k), (Z.testbit y k), (Z.testbit (Z.ones (width t)) k); reflexivity. }
  destruct o; cbn [bit_kind]; rewrite arithmetic_size4 by exact A;
    (eapply binary_ok; [reflexivity|reflexivity|exact E]).
Qed.

(** ** Shifts *)

Lemma shift_ok : forall left t x k, arithmetic t -> in_range t x -> 0 <= k < width t ->
  shift left t (x mod 2 ^ width t) k = (if left then x * 2 ^ k else x / 2 ^ k) mod 2 ^ width t.
Proof.
  intros left t x k A X K. unfold shift. rewrite bits_width.
  assert (W : width t <= 64 /\ width t <= (if width t =? 64 then 64 else 32)) by (destruct A as [->|[->|[->| ->]]]; cbn; lia).
  assert (E : amount (width t) (wrapu 8 k) = k).
  { unfold amount. rewrite wrapu_id by lia. apply Z.mod_small. lia. }
  rewrite E. destruct left; rewrite wrapu_width; [|rewrite number_of by exact X; reflexivity].
  apply Z.mul_mod_idemp_l. apply Z.pow_nonzero; lia.
Qed.

Lemma good_literal : forall l t v, lty l = t -> value l = v -> object_value t v -> good (literal_expr l) t v.
Proof. intros l t v L V O. repeat split; try exact L; try exact V; apply O. Qed.

Lemma shift_range : forall (left : bool) t x k, arithmetic t -> in_range t x -> 0 <= k ->
  object_value t (if left then convert t (x * 2 ^ k) else x / 2 ^ k).
Proof.
  intros left t x k A X K. apply object_of; [|apply arithmetic_bool, A].
  destruct left; [apply convert_range|]. rewrite <- Z.shiftr_div_pow2 by lia. apply shiftr_range; auto.
Qed.

Lemma promote_in : forall t x, in_range t x -> in_range (promote t) x.
Proof. intros t x R. rewrite <- (promote_keeps t x R). apply convert_range. Qed.

Lemma lower_shift_ok : forall left a b ta tb va vb0, good a ta va -> good b tb vb0 ->
  0 <= vb0 < width (promote ta) ->
  exists e, lower_shift left a b = Done e /\
    good e (promote ta) (if left then convert (promote ta) (va * 2 ^ vb0) else va / 2 ^ vb0) /\
    (literal e = None <-> literal a = None \/ literal b = None).
Proof.
  intros left a b ta tb va vb0 Ga Gb K.
  pose proof (arithmetic_promote ta) as At. pose proof (arithmetic_promote tb) as Ab.
  assert (Ra : in_range ta va) by apply object_in, Ga. assert (Rb : in_range tb vb0) by apply object_in, Gb.
  pose proof (shift_range left (promote ta) va vb0 At (promote_in _ _ Ra) ltac:(lia)) as O.
  unfold lower_shift.
  assert (B : forall D : literal a = None \/ literal b = None,
    exists e, (let '(a, ca) := push_cast_expr true (perform_integer_promotions (resolved_type a)) a in
      let '(b, cb) := push_cast_expr false (perform_integer_promotions (resolved_type b)) b in
      let bad := match literal b with
                 | Some r => (type_is_signed (resolved_type b) && (read_lit r <? 0))
                             || (integer_literal_as_u64 r >? size (resolved_type a) * 8)
                 | None => false
                 end in
      if bad then Reported
      else
        let '(b, cb8) := push_cast_expr false U8 b in
        let t := resolved_type a in
        Done (mkexpr (emit a ++ emit b ++ ca ++ cb ++ cb8 ++ [if left then Left_shift t else Right_shift t]) t None)) = Done e /\
    good e (promote ta) (if left then convert (promote ta) (va * 2 ^ vb0) else va / 2 ^ vb0) /\
    (literal e = None <-> literal a = None \/ literal b = None)).
  { intros D. pose proof Ga as (Ta & _). pose proof Gb as (Tb & _ & Lb).
    rewrite Ta, Tb, !promotions_eq.
    pose proof (push_ok true (promote ta) a ta va Ga) as (Ta' & ca & ca' & Xa & _ & Ca & Ya & _).
    destruct (push_cast_expr true (promote ta) a) as [a' ka]. cbn [fst snd] in *. rewrite Ta'.
    (* the amount *)
    assert (Q : exists b' kb b2 k8 cb cb',
      push_cast_expr false (promote tb) b = (b', kb) /\ resolved_type b' = promote tb /\
      match literal b' with
      | Some r => (type_is_signed (promote tb) && (read_lit r <? 0)) || (integer_literal_as_u64 r >? size (promote ta) * 8)
      | None => false
      end = false /\
      push_cast_expr false U8 b' = (b2, k8) /\
      (forall s, exec (emit b2) s m = Next (cb :: s, m)) /\
      (forall s, exec (kb ++ k8) (cb :: s) m = Next (cb' :: s, m)) /\ yields cb' U8 vb0).
    { pose proof (cast_good (promote tb) b tb vb0 Gb) as G1. rewrite promote_keeps in G1 by exact Rb.
      assert (SZ : size (promote ta) * 8 = width (promote ta)) by (destruct ta; reflexivity).
      assert (C8 : convert U8 vb0 = vb0).
      { rewrite convert_wrap by discriminate. apply wrap_t_id. unfold in_range. cbn.
        destruct At as [E|[E|[E|E]]]; rewrite E in K; cbn in K; lia. }
      destruct (literal b) as [l|] eqn:LB.
      - (* literal: all in place *)
        unfold cast_expr in G1. pose proof (push_ok false (promote tb) b tb vb0 Gb) as (T1 & _).
        destruct (push_cast_expr false (promote tb) b) as [b' kb] eqn:P. cbn [fst] in T1.
        assert (L' : exists l', literal b' = Some l' /\ kb = []).
        { unfold push_cast_expr in P. rewrite LB in P. destruct (ity_eqb (resolved_type b) (promote tb)); injection P as <- <-; cbn [literal]; eauto. }
        destruct L' as (l' & L' & ->). assert (G2 : good b' (promote tb) vb0).
        { destruct G1 as (g1 & g2 & g3). cbn [literal code] in g3. rewrite L' in g3. split; [exact T1|]. split; [exact g2|]. rewrite L'. exact g3. }
        pose proof (push_ok false U8 b' (promote tb) vb0 G2) as (_ & c & c' & X & C & _ & Y & _).
        destruct (push_cast_expr false U8 b') as [b2 k8] eqn:P8. cbn [fst snd] in *.
        exists b', [], b2, k8, c, c'. split; [reflexivity|]. split; [exact T1|]. split; [|split; [exact P8|split; [exact X|split]]].
        + rewrite L'. destruct G2 as (_ & _ & g3). rewrite L' in g3. destruct g3 as [g3 g4].
          unfold integer_literal_as_u64. rewrite read_value, g4, SZ.
          assert (vb0 <? 0 = false) by (apply Z.ltb_ge; lia). rewrite H, andb_false_r. cbn [orb].
          assert (width (promote ta) <= 64) by (destruct ta; cbn; lia).
          rewrite wrapu_id by lia. rewrite Z.gtb_ltb. apply Z.ltb_ge. lia.
        + intro s. apply C. reflexivity.
        + rewrite <- C8. exact Y.
      - (* code *)
        pose proof G1 as (T1 & O1 & L1). unfold cast_expr in *. 
        destruct (push_cast_expr false (promote tb) b) as [b' kb] eqn:P. cbn [resolved_type literal code] in *.
        assert (L' : literal b' = None /\ code b' = code b).
        { unfold push_cast_expr in P. rewrite LB in P. destruct (ity_eqb (resolved_type b) (promote tb)); injection P as <- <-; auto. }
        destruct L' as [L' C']. rewrite L' in L1. destruct L1 as (c1 & X1 & R1 & Y1).
        destruct Lb as (c0 & X0 & R0 & Y0).
        destruct (cast_ok c1 (promote tb) U8 vb0 Y1 O1 R1) as (c' & [C1 _] & _ & Y').
        exists b', kb, (mkexpr (code b') U8 None), (cast_code false (promote tb) U8), c0, c'.
        split; [reflexivity|]. split; [exact T1|]. split; [rewrite L'; reflexivity|]. split.
        { unfold push_cast_expr. rewrite L', T1. destruct (ity_eqb_spec (promote tb) U8) as [E|E]; [|reflexivity].
          exfalso. destruct Ab as [F|[F|[F|F]]]; congruence. }
        split; [|split].
        + intro s. unfold emit. cbn [literal code]. rewrite C'. apply X0.
        + intro s. assert (Z1 : exec kb (c0 :: s) m = Next (c1 :: s, m)).
          { specialize (X1 s). rewrite C', (exec_app_next _ _ _ _ (X0 s)) in X1. exact X1. }
          rewrite (exec_app_next _ _ _ _ Z1). apply C1.
        + rewrite <- C8. exact Y'. }
    destruct Q as (b' & kb & b2 & k8 & cb & cb' & P & T1 & BAD & P8 & Xb & Cb & Yb).
    rewrite P, T1. cbv zeta. rewrite BAD, P8.
    eexists. split; [reflexivity|]. split; [|cbn [literal]; tauto].
    split; [reflexivity|]. split; [exact O|]. cbn [literal code].
    exists (Value (width (promote ta)) ((if left then va * 2 ^ vb0 else va / 2 ^ vb0) mod 2 ^ width (promote ta))).
    split; [|split; [exact I|]].
    - intro s. rewrite (exec_app_next _ _ _ _ (Xa s)), (exec_app_next _ _ _ _ (Xb _)), (exec_app_next _ _ _ _ (Ca eq_refl _ _)).
      rewrite app_assoc, (exec_app_next _ _ _ _ (Cb _)), exec_one.
      rewrite promote_keeps in Ya by exact Ra. pose proof (fetch_yields _ _ _ Ya) as F. rewrite <- bits_width in F.
      destruct Yb as [_ Yb]. rewrite Z.mod_small in Yb
        by (destruct At as [E|[E|[E|E]]]; rewrite E in K; cbn in *; lia).
      destruct left; cbn [LowerModel.step]; rewrite F; cbn [rbind]; rewrite Yb, !bits_width;
        [rewrite (shift_ok true)|rewrite (shift_ok false)]; auto using promote_in.
    - apply value_yields. destruct left; [|reflexivity]. symmetry. apply convert_mod, arithmetic_bool, At. }
  destruct (literal a) as [la|] eqn:LA; [|apply B; auto].
  destruct (literal b) as [lb|] eqn:LB; [|apply B; auto].
  destruct Ga as (Ta & _ & Ga). destruct Gb as (Tb & _ & Gb). rewrite LA in Ga. rewrite LB in Gb.
  destruct Ga as [<- <-]. destruct Gb as [<- <-].
  destruct (fold_shift_ok left la lb K) as (q & F & Tq & Vq). rewrite F. cbn [obind].
  eexists. split; [reflexivity|]. split; [apply good_literal; auto|]. cbn. split; [discriminate|intros [?|?]; discriminate].
Qed.

Lemma usual_same : forall t, arithmetic t -> usual_int t t = t.
Proof. intros t [->|[->|[->| ->]]]; reflexivity. Qed.

Lemma value_in : forall t x, in_range t x -> value (mklit t x) = x.
Proof. intros t x R. unfold value. cbn [lty payload]. rewrite value_wrap. apply wrap_t_id, R. Qed.

Lemma convert_in : forall t x, t <> TBool -> in_range t x -> convert t x = x.
Proof. intros t x N R. rewrite convert_wrap by exact N. apply wrap_t_id, R. Qed.

Lemma arith_range : forall o t x y w, arithmetic t -> in_range t x -> in_range t y ->
  arith_sem o t x y = Some w -> in_range t w.
Proof.
  intros o t x y w A X Y E.
  destruct (fold_arith_ok o (mklit t x) (mklit t y) t w) as (q & _ & T & V).
  - cbn [lty]. symmetry. apply usual_same, A.
  - rewrite !value_in, !convert_in by auto using arithmetic_bool. exact E.
  - rewrite <- V, <- T. apply value_range.
Qed.

Lemma cmp_object : forall o x y, object_value S32 (cmp_sem o x y).
Proof.
  intros o x y. assert (D : forall b, object_value S32 (b2z b)).
  { intros b. apply object_of; [|discriminate]. unfold in_range. destruct b; cbn; lia. }
  destruct o; apply D.
Qed.

Definition lowered (e : expr) (t : ity) (v : Z) (const : bool) : Prop :=
  good e t v /\ (literal e = None <-> const = false).

Lemma lower_arith_ok : forall o a b ta tb va vb0 t v ka kb, lowered a ta va ka -> lowered b tb vb0 kb ->
  arith_value o (ta, va) (tb, vb0) = Some (t, v) ->
  exists e, lower_arith o a b = Done e /\ lowered e t v (ka && kb).
Proof.
  intros o a b ta tb va vb0 t v ka kb [Ga La] [Gb Lb] E. unfold arith_value in E. cbn [fst snd] in E.
  destruct (arith_sem o (usual_int ta tb) (convert (usual_int ta tb) va) (convert (usual_int ta tb) vb0)) as [w|] eqn:A; [|discriminate].
  cbn [bind] in E. injection E as Et Ev. subst w.
  assert (R : in_range t v) by (rewrite <- Et in *; eapply arith_range; [apply arithmetic_usual|..|exact A]; apply convert_range).
  assert (O : object_value t v) by (apply object_of; [exact R|rewrite <- Et; apply usual_not_bool]).
  assert (B : literal a = None \/ literal b = None ->
     exists e, converted (arith_kind o) (fun t => t) a b = Done e /\ lowered e t v (ka && kb)).
  { intros D. destruct (converted_ok (arith_kind o) (fun t => t) a b ta tb va vb0 v t Ga Gb (eq_sym Et)) as (e & X & G & L).
    - rewrite Et in A. apply arith_computes; auto using convert_range. rewrite <- Et. apply arithmetic_usual.
    - exact O.
    - exists e. split; [exact X|]. split; [exact G|]. rewrite L, andb_false_iff, <- La, <- Lb. tauto. }
  unfold lower_arith. destruct (literal a) as [l|] eqn:LA; [|apply B; auto].
  destruct (literal b) as [r|] eqn:LB; [|apply B; auto].
  destruct Ga as (_ & _ & Ga). destruct Gb as (_ & _ & Gb). rewrite LA in Ga. rewrite LB in Gb.
  destruct Ga as [<- <-]. destruct Gb as [<- <-].
  destruct (fold_arith_ok o l r _ v eq_refl A) as (q & F & T & V). rewrite F. cbn [obind].
  eexists. split; [reflexivity|]. split; [apply good_literal; congruence|].
  cbn [literal literal_expr]. rewrite andb_false_iff, <- La, <- Lb. split; [discriminate|intros [?|?]; discriminate].
Qed.

Lemma lower_bit_ok : forall o a b ta tb va vb0 t v ka kb, lowered a ta va ka -> lowered b tb vb0 kb ->
  bit_value o (ta, va) (tb, vb0) = Some (t, v) ->
  exists e, lower_bit o a b = Done e /\ lowered e t v (ka && kb).
Proof.
  intros o a b ta tb va vb0 t v ka kb [Ga La] [Gb Lb] E. unfold bit_value in E. cbn [fst snd] in E.
  injection E as Et Ev.
  assert (O : object_value t v).
  { apply object_of; [|rewrite <- Et; apply usual_not_bool]. rewrite <- Et, <- Ev. apply bit_sem_range; apply convert_range. }
  assert (B : literal a = None \/ literal b = None ->
     exists e, converted (bit_kind o) (fun t => t) a b = Done e /\ lowered e t v (ka && kb)).
  { intros D. destruct (converted_ok (bit_kind o) (fun t => t) a b ta tb va vb0 v t Ga Gb (eq_sym Et)) as (e & X & G & L).
    - rewrite <- Ev, Et. apply bit_computes; auto using convert_range. rewrite <- Et. apply arithmetic_usual.
    - exact O.
    - exists e. split; [exact X|]. split; [exact G|]. rewrite L, andb_false_iff, <- La, <- Lb. tauto. }
  unfold lower_bit. destruct (literal a) as [l|] eqn:LA; [|apply B; auto].
  destruct (literal b) as [r|] eqn:LB; [|apply B; auto].
  destruct Ga as (_ & _ & Ga). destruct Gb as (_ & _ & Gb). rewrite LA in Ga. rewrite LB in Gb.
  destruct Ga as [<- <-]. destruct Gb as [<- <-].
  destruct (fold_bit_ok o l r _ eq_refl) as (q & F & T & V). rewrite F. cbn [obind].
  eexists. split; [reflexivity|]. split; [apply good_literal; congruence|].
  cbn [literal literal_expr]. rewrite andb_false_iff, <- La, <- Lb. split; [discriminate|intros [?|?]; discriminate].
Qed.

Lemma lower_cmp_ok : forall o a b ta tb va vb0 ka kb, lowered a ta va ka -> lowered b tb vb0 kb ->
  exists e, lower_cmp o a b = Done e /\
    lowered e S32 (cmp_sem o (convert (usual_int ta tb) va) (convert (usual_int ta tb) vb0)) (ka && kb).
Proof.
  intros o a b ta tb va vb0 ka kb [Ga La] [Gb Lb].
  assert (B : literal a = None \/ literal b = None ->
     exists e, converted (cmp_kind o) (fun _ => S32) a b = Done e /\
       lowered e S32 (cmp_sem o (convert (usual_int ta tb) va) (convert (usual_int ta tb) vb0)) (ka && kb)).
  { intros D. destruct (converted_ok (cmp_kind o) (fun _ => S32) a b ta tb va vb0
        (cmp_sem o (convert (usual_int ta tb) va) (convert (usual_int ta tb) vb0)) (usual_int ta tb) Ga Gb eq_refl) as (e & X & G & L).
    - apply cmp_computes; auto using convert_range, arithmetic_usual.
    - apply cmp_object.
    - exists e. split; [exact X|]. split; [exact G|]. rewrite L, andb_false_iff, <- La, <- Lb. tauto. }
  unfold lower_cmp. destruct (literal a) as [l|] eqn:LA; [|apply B; auto].
  destruct (literal b) as [r|] eqn:LB; [|apply B; auto].
  destruct Ga as (_ & _ & Ga). destruct Gb as (_ & _ & Gb). rewrite LA in Ga. rewrite LB in Gb.
  destruct Ga as [<- <-]. destruct Gb as [<- <-].
  destruct (fold_cmp_ok o l r _ eq_refl) as (q & F & T & V). rewrite F. cbn [obind].
  eexists. split; [reflexivity|]. split; [apply good_literal; auto using cmp_object|].
  cbn [literal literal_expr]. rewrite andb_false_iff, <- La, <- Lb. split; [discriminate|intros [?|?]; discriminate].
Qed.

Lemma unary_ok : forall n f t x u r w, n = width t -> f (x mod 2 ^ width t) = Value (width u) r -> r = w mod 2 ^ width u ->
  forall a, yields a t x -> exists c, (forall s, unary vb n f (a :: s) m = Next (c :: s, m)) /\ runtime c /\ yields c u w.
Proof.
  intros n f t x u r w -> F E a A. exists (Value (width u) r). split; [|split; [exact I|apply value_yields, E]].
  intro s. cbn [unary]. rewrite (fetch_yields a t x A). cbn [rbind]. rewrite F. reflexivity.
Qed.

Lemma lower_un_ok : forall o a ta va k, lowered a ta va k ->
  exists e, lower_un o a = Done e /\ lowered e (fst (un_sem o ta va)) (snd (un_sem o ta va)) k.
Proof.
  intros o a ta va k [G L]. unfold lower_un.
  assert (R : in_range ta va) by apply object_in, G.
  assert (A : arithmetic (promote ta)) by apply arithmetic_promote.
  assert (NB : promote ta <> TBool) by apply arithmetic_bool, A.
  assert (O : object_value (fst (un_sem o ta va)) (snd (un_sem o ta va))).
  { destruct o; cbn [un_sem fst snd]; try (apply object_of; [first [apply convert_range|apply promote_in, R]|exact NB]).
    apply object_of; [|discriminate]. unfold in_range. destruct (va =? 0); cbn; lia. }
  destruct (literal a) as [l|] eqn:LA.
  - destruct G as (_ & _ & G). rewrite LA in G. destruct G as [<- <-].
    destruct (fold_un_ok o l) as (q & F & V). rewrite F. cbn [obind]. rewrite <- V in *. cbn [fst snd] in *.
    eexists. split; [reflexivity|]. split; [apply good_literal; auto|]. cbn. rewrite <- L. split; discriminate.
  - assert (P : good (promotion_cast a) (promote ta) va).
    { unfold promotion_cast. rewrite (proj1 G), promotions_eq. pose proof (cast_good (promote ta) a ta va G) as C. rewrite (promote_keeps ta va R) in C. exact C. }
    assert (LP : literal (promotion_cast a) = None).
    { unfold promotion_cast, cast_expr, push_cast_expr. rewrite LA. destruct (ity_eqb _ _); [exact LA|reflexivity]. }
    pose proof P as (T & _ & C). rewrite LP in C. destruct C as (c & X & RT & Y). rewrite T.
    assert (Q : forall i u w, object_value u w ->
       (forall a, yields a (promote ta) va -> exists c, (forall s, step i (a :: s) m = Next (c :: s, m)) /\ runtime c /\ yields c u w) ->
       lowered (mkexpr (code (promotion_cast a) ++ [i]) u None) u w k).
    { intros i u w Ow S. split; [|cbn [literal]; exact L]. split; [reflexivity|]. split; [exact Ow|]. cbn [literal code].
      destruct (S c Y) as (c' & X' & R' & Y'). exists c'. split; [|auto].
      intro s. rewrite (exec_app_next _ _ _ _ (X s)), exec_one. apply X'. }
    assert (W : 2 ^ width (promote ta) <> 0) by (pose proof (width_pos (promote ta)); apply Z.pow_nonzero; lia).
    destruct o; cbn [un_sem fst snd] in *; (eexists; split; [reflexivity|]).
    + apply Q; [exact O|]. rewrite arithmetic_size4 by exact A. eapply unary_ok; [reflexivity|reflexivity|].
      rewrite wrapu_width, convert_mod by exact NB. apply opp_mod; [pose proof (width_pos (promote ta)); lia|]. apply Z.mod_mod, W.
    + split; [exact P|]. rewrite LP. tauto.
    + apply Q; [exact O|]. rewrite arithmetic_size4 by exact A. eapply unary_ok; [reflexivity|reflexivity|].
      rewrite wrapu_width, convert_mod by exact NB. apply lnot_mod; [pose proof (width_pos (promote ta)); lia|]. apply Z.mod_mod, W.
    + apply Q; [exact O|]. rewrite arithmetic_size4 by exact A. eapply unary_ok; [reflexivity| |].
      * rewrite word_zero by (apply promote_in, R). rewrite truth_value. reflexivity.
      * reflexivity.
Qed.

(** ** The main induction *)
Theorem lower_ok : forall env e t v, holds ty env m -> literals_ok e -> no_constant_comma e ->
  veval ty env e = Some (t, v) ->
  exists q, lower ty e = Done q /\ lowered q t v (constant e).
Proof.
  intros env e t v H. revert t v. 
  induction e as [t0 p|x|o a IHa|t0 a IHa|o a IHa b IHb|o a IHa b IHb|o a IHa b IHb|a IHa b IHb|a IHa b IHb|a IHa b IHb];
    intros t v LO NC E; cbn [veval lower literals_ok no_constant_comma constant] in *.
  - injection E as <- <-. eexists. split; [reflexivity|]. split; [apply good_literal; auto|]. cbn. split; discriminate.
  - injection E as <- <-. eexists. split; [reflexivity|]. split; [|cbn; tauto]. destruct (H x) as [O M].
    split; [reflexivity|]. split; [exact O|]. exists (Location x). split; [reflexivity|]. split; [exact I|].
    split; [apply bits_width|]. exact M.
  - destruct (veval ty env a) as [[ta va]|]; [|discriminate]. cbn [bind fst snd] in E.
    destruct (IHa ta va LO NC eq_refl) as (qa & -> & Ga). cbn [obind].
    destruct (lower_un_ok o qa ta va _ Ga) as (q & Q & G). exists q. split; [exact Q|].
    assert (F : un_sem o ta va = (t, v)) by congruence. rewrite F in G. exact G.
  - destruct (veval ty env a) as [[ta va]|]; [|discriminate]. cbn [bind fst snd] in E.
    destruct (IHa ta va LO NC eq_refl) as (qa & -> & Ga). cbn [obind]. injection E as <- <-.
    eexists. split; [reflexivity|]. destruct Ga as [Ga La]. split; [eapply cast_good, Ga|]. rewrite <- La.
    unfold cast_expr, push_cast_expr. destruct (ity_eqb (resolved_type qa) t0); [reflexivity|].
    destruct (literal qa); cbn [literal]; split; congruence.
  - destruct (veval ty env a) as [[ta va]|]; [|discriminate]. cbn [bind] in E.
    destruct (veval ty env b) as [[tb vb0]|]; [|discriminate]. cbn [bind] in E.
    destruct LO as [LOa LOb]. destruct NC as [NCa NCb].
    destruct (IHa ta va LOa NCa eq_refl) as (qa & -> & Ga). destruct (IHb tb vb0 LOb NCb eq_refl) as (qb & -> & Gb). cbn [obind].
    eapply lower_arith_ok; eauto.
  - destruct (veval ty env a) as [[ta va]|]; [|discriminate]. cbn [bind] in E.
    destruct (veval ty env b) as [[tb vb0]|]; [|discriminate]. cbn [bind] in E.
    destruct LO as [LOa LOb]. destruct NC as [NCa NCb].
    destruct (IHa ta va LOa NCa eq_refl) as (qa & -> & Ga). destruct (IHb tb vb0 LOb NCb eq_refl) as (qb & -> & Gb). cbn [obind].
    cbn [fst snd] in E. cbv zeta in E. injection E as <- <-. eapply lower_cmp_ok; eauto.
  - destruct (veval ty env a) as [[ta va]|]; [|discriminate]. cbn [bind] in E.
    destruct (veval ty env b) as [[tb vb0]|]; [|discriminate]. cbn [bind] in E.
    destruct LO as [LOa LOb]. destruct NC as [NCa NCb].
    destruct (IHa ta va LOa NCa eq_refl) as (qa & -> & Ga). destruct (IHb tb vb0 LOb NCb eq_refl) as (qb & -> & Gb). cbn [obind].
    eapply lower_bit_ok; eauto.
  - destruct (veval ty env a) as [[ta va]|]; [|discriminate]. cbn [bind] in E.
    destruct (veval ty env b) as [[tb vb0]|]; [|discriminate]. cbn [bind] in E.
    destruct LO as [LOa LOb]. destruct NC as [NCa NCb].
    destruct (IHa ta va LOa NCa eq_refl) as (qa & -> & Ga & La). destruct (IHb tb vb0 LOb NCb eq_refl) as (qb & -> & Gb & Lb). cbn [obind].
    unfold shl_value in E. cbn [fst snd] in E. destruct ((0 <=? vb0) && (vb0 <? width (promote ta))) eqn:K; [|discriminate].
    injection E as <- <-. destruct (lower_shift_ok true qa qb ta tb va vb0 Ga Gb) as (e & X & G & L); [lia|].
    exists e. split; [exact X|]. split; [exact G|]. rewrite L, andb_false_iff, La, Lb. reflexivity.
  - destruct (veval ty env a) as [[ta va]|]; [|discriminate]. cbn [bind] in E.
    destruct (veval ty env b) as [[tb vb0]|]; [|discriminate]. cbn [bind] in E.
    destruct LO as [LOa LOb]. destruct NC as [NCa NCb].
    destruct (IHa ta va LOa NCa eq_refl) as (qa & -> & Ga & La). destruct (IHb tb vb0 LOb NCb eq_refl) as (qb & -> & Gb & Lb). cbn [obind].
    unfold shr_value in E. cbn [fst snd] in E. destruct ((0 <=? vb0) && (vb0 <? width (promote ta))) eqn:K; [|discriminate].
    injection E as <- <-. destruct (lower_shift_ok false qa qb ta tb va vb0 Ga Gb) as (e & X & G & L); [lia|].
    exists e. split; [exact X|]. split; [exact G|]. rewrite L, andb_false_iff, La, Lb. reflexivity.
  - destruct (veval ty env a) as [[ta va]|]; [|discriminate]. cbn [bind] in E.
    destruct LO as [LOa LOb]. destruct NC as (NCa & NCb & CB).
    destruct (IHa ta va LOa NCa eq_refl) as (qa & -> & Ga & La). destruct (IHb t v LOb NCb E) as (qb & -> & Gb & Lb). cbn [obind].
    eexists. split; [reflexivity|]. split; [|cbn [literal]; tauto].
    destruct (good_emit qa ta va Ga) as (ca & Xa & _ & _). destruct Gb as (Tb & Ob & Gb).
    rewrite CB in Lb. assert (NL : literal qb = None) by tauto. rewrite NL in Gb. destruct Gb as (c & X & R & Y).
    split; [exact Tb|]. split; [exact Ob|]. cbn [literal code]. exists c. split; [|auto].
    intro s. rewrite (exec_app_next _ _ _ _ (Xa s)). cbn [app LowerModel.exec]. cbn [LowerModel.step rbind fst snd].
    unfold emit. rewrite NL. rewrite (exec_app_next _ _ _ _ (X s)). reflexivity.
Qed.

(** ** Assignments *)

Lemma holds_update : forall env x v, holds ty env m -> object_value (ty x) v ->
  holds ty (assigned env x v) (update m x (v mod 2 ^ width (ty x))).
Proof.
  intros env x v H O y. unfold assigned, update. destruct (Nat.eqb_spec y x) as [->|N]; [auto|apply H].
Qed.

(** What [x = ...] in its different forms leaves. *)
Definition assigns (c : list ir) (env : values) (x : nat) (v : Z) : Prop :=
  exists r m', (forall s, exec c s m = Next (r :: s, m')) /\
    fetch vb m' (width (ty x)) r = Next (v mod 2 ^ width (ty x)) /\
    holds ty (assigned env x v) m'.

Lemma fetch_variable : forall env x, holds ty env m -> fetch vb m (width (ty x)) (Location x) = Next (env x mod 2 ^ width (ty x)).
Proof.
  intros env x H. unfold fetch. cbn [operand_bits contents]. change (vb x) with (bits (ty x)). rewrite bits_width, Z.eqb_refl. f_equal. apply H.
Qed.

Lemma assignment_ok : forall env x e t v, holds ty env m -> good e t v ->
  assigns (lower_assignment ty x e) env x (convert (ty x) v).
Proof.
  intros env x e t v H G. pose proof (cast_good (ty x) e t v G) as G'.
  destruct (good_emit _ _ _ G') as (c & X & Y & _).
  exists (Value (width (ty x)) (convert (ty x) v mod 2 ^ width (ty x))), (update m x (convert (ty x) v mod 2 ^ width (ty x))).
  split; [|split].
  - intro s. unfold lower_assignment. cbn [app LowerModel.exec LowerModel.step rbind fst snd].
    rewrite (exec_app_next _ _ _ _ (X _)), exec_one. cbn [LowerModel.step].
    change (vb x) with (bits (ty x)). rewrite bits_width, (fetch_yields _ _ _ Y). reflexivity.
  - unfold fetch. cbn [operand_bits contents]. rewrite Z.eqb_refl. reflexivity.
  - apply holds_update; [exact H|apply convert_object].
Qed.

Lemma usual_wider : forall a b, width a <= width (usual_int a b).
Proof. intros a b. destruct a, b; cbn; lia. Qed.

Lemma convert_low : forall t v n, t <> TBool -> 0 <= n <= width t -> convert t v mod 2 ^ n = v mod 2 ^ n.
Proof.
  intros t v n NB N. rewrite <- (mod_mod_pow (convert t v) (width t) n), <- (mod_mod_pow v (width t) n) by lia.
  rewrite convert_mod by exact NB. reflexivity.
Qed.

(** An instruction that changes the variable in place, on a right side of the variable's type. *)
Lemma in_place : forall env x e t v i f w, holds ty env m -> good e t v ->
  (forall s b, fetch vb m (width (ty x)) b = Next (convert (ty x) v mod 2 ^ width (ty x)) ->
     step i (b :: Location x :: s) m =
       rbind (f (env x mod 2 ^ width (ty x)) (convert (ty x) v mod 2 ^ width (ty x))) (fun w => Next (Location x :: s, update m x w))) ->
  f (env x mod 2 ^ width (ty x)) (convert (ty x) v mod 2 ^ width (ty x)) = Next (w mod 2 ^ width (ty x)) ->
  object_value (ty x) w ->
  assigns ([Identifier x] ++ emit (cast_expr (ty x) e) ++ [i]) env x w.
Proof.
  intros env x e t v i f w H G St F O. pose proof (cast_good (ty x) e t v G) as G'.
  destruct (good_emit _ _ _ G') as (c & X & Y & _).
  exists (Location x), (update m x (w mod 2 ^ width (ty x))). split; [|split].
  - intro s. cbn [app LowerModel.exec LowerModel.step rbind fst snd].
    rewrite (exec_app_next _ _ _ _ (X _)), exec_one, (St s c (fetch_yields _ _ _ Y)), F. reflexivity.
  - unfold fetch. cbn [operand_bits contents]. change (vb x) with (bits (ty x)). rewrite bits_width, Z.eqb_refl.
    unfold update. rewrite Nat.eqb_refl. reflexivity.
  - apply holds_update; assumption.
Qed.

Lemma assignment_step : forall env x b n f y s, holds ty env m -> n = width (ty x) ->
  fetch vb m (width (ty x)) b = Next y ->
  assignment vb n f (b :: Location x :: s) m =
    rbind (f (env x mod 2 ^ width (ty x)) y) (fun w => Next (Location x :: s, update m x w)).
Proof.
  intros env x b n f y s H -> B. cbn [assignment]. rewrite (fetch_variable env x H), B. reflexivity.
Qed.

Lemma kind_u8_width : forall t, t <> TBool -> kind_u8 t = width t.
Proof. intros t N. destruct t; try reflexivity. congruence. Qed.

(** Punting: the operation is done in the common type, the result is cast and stored. *)
Lemma punt_ok : forall env x k e t v u w y, holds ty env m -> good e t v -> u = usual_int (ty x) t ->
  computes (punt_kind k u) u (convert u (env x)) (convert u v) u w -> object_value u w ->
  convert (ty x) w = y ->
  exists c, punt_compound_assignment k x [] (ty x) (ty x) Store e = Done c /\ assigns c env x y.
Proof.
  intros env x k e t v u w y H G U K O <-. unfold punt_compound_assignment.
  rewrite (proj1 G), usual_int_eq, <- U.
  assert (Gx : good (mkexpr [Identifier x] (ty x) None) (ty x) (env x)).
  { split; [reflexivity|]. split; [apply H|]. exists (Location x). split; [reflexivity|]. split; [exact I|].
    split; [apply bits_width|]. apply H. }
  pose proof (push_ok true u _ _ _ Gx) as (_ & cx & cx' & Xx & _ & Cx & Yx & _).
  assert (EX : cx = Location x).
  { specialize (Xx []). unfold push_cast_expr in Xx. cbn [resolved_type literal code] in Xx.
    destruct (ity_eqb (ty x) u); cbn [fst] in Xx; unfold emit in Xx; cbn [literal code] in Xx; rewrite exec_one in Xx;
      cbn [LowerModel.step] in Xx; congruence. }
  subst cx.
  assert (SX : snd (push_cast_expr true u (mkexpr [Identifier x] (ty x) None)) = snd (push_cast_expr true u (mkexpr [] (ty x) None))).
  { unfold push_cast_expr. cbn [resolved_type literal]. destruct (ity_eqb (ty x) u); reflexivity. }
  rewrite SX in Cx.
  pose proof (push_ok false u e t v G) as (_ & ce & ce' & Xe & Ce & _ & Ye & _).
  destruct (K cx' ce' Yx Ye) as (c & St & Rc & Yc).
  assert (Gt : good (mkexpr [] u None) u w -> True) by trivial.
  assert (CT : exists c', (forall s, exec (snd (push_cast_expr false (ty x) (mkexpr [] u None))) (c :: s) m = Next (c' :: s, m)) /\
             yields c' (ty x) (convert (ty x) w)).
  { unfold push_cast_expr. cbn [resolved_type literal]. destruct (ity_eqb_spec u (ty x)) as [E|E]; cbn [snd].
    - exists c. split; [reflexivity|]. rewrite <- E, convert_self by exact O. exact Yc.
    - destruct (cast_ok c u (ty x) w Yc O Rc) as (c' & [C1 _] & _ & Y'). exists c'. split; [exact C1|exact Y']. }
  destruct CT as (c' & Ct & Yt).
  destruct (push_cast_expr true u (mkexpr [] (ty x) None)) as [x' kx].
  destruct (push_cast_expr false u e) as [e' ke].
  destruct (push_cast_expr false (ty x) (mkexpr [] u None)) as [u' ku]. cbn [fst snd] in *.
  eexists. split; [reflexivity|].
  exists (Value (width (ty x)) (convert (ty x) w mod 2 ^ width (ty x))), (update m x (convert (ty x) w mod 2 ^ width (ty x))).
  split; [|split].
  - intro s. cbn [app LowerModel.exec LowerModel.step rbind fst snd].
    rewrite (exec_app_next _ _ _ _ (Xe _)). cbn [app LowerModel.exec LowerModel.step rbind fst snd].
    rewrite (exec_app_next _ _ _ _ (Cx eq_refl _ _)), (exec_app_next _ _ _ _ (Ce eq_refl _)).
    change (punt_kind k u :: ku ++ [Store]) with ([punt_kind k u] ++ ku ++ [Store]).
    assert (S1 : forall s, exec [punt_kind k u] (ce' :: cx' :: s) m = Next (c :: s, m)) by (intro s0; rewrite exec_one; apply St).
    rewrite (exec_app_next _ _ _ _ (S1 _)), (exec_app_next _ _ _ _ (Ct _)), exec_one. cbn [LowerModel.step].
    change (vb x) with (bits (ty x)). rewrite bits_width, (fetch_yields _ _ _ Yt). reflexivity.
  - unfold fetch. cbn [operand_bits contents]. rewrite Z.eqb_refl. reflexivity.
  - apply holds_update; [exact H|apply convert_object].
Qed.

Lemma punt_arith : forall env x o e t v u w, holds ty env m -> good e t v ->
  arith_value o (ty x, env x) (t, v) = Some (u, w) ->
  exists c, punt_compound_assignment (KArith o) x [] (ty x) (ty x) Store e = Done c /\ assigns c env x (convert (ty x) w).
Proof.
  intros env x o e t v u w H G E. unfold arith_value in E. cbn [fst snd] in E.
  destruct (arith_sem o (usual_int (ty x) t) (convert (usual_int (ty x) t) (env x)) (convert (usual_int (ty x) t) v)) as [w0|] eqn:A; [|discriminate].
  cbn [bind] in E. injection E as Eu Ew. subst w0. rewrite Eu in A.
  assert (AU : arithmetic u) by (rewrite <- Eu; apply arithmetic_usual).
  eapply punt_ok; [exact H|exact G|symmetry; exact Eu| | |reflexivity].
  - pose proof (arith_computes o u _ _ w AU (convert_range u (env x)) (convert_range u v) A) as K. destruct o; exact K.
  - apply object_of; [|apply arithmetic_bool, AU]. eapply arith_range; [exact AU|..|exact A]; apply convert_range.
Qed.

Lemma punt_bit : forall env x o e t v u w, holds ty env m -> good e t v ->
  bit_value o (ty x, env x) (t, v) = Some (u, w) ->
  exists c, punt_compound_assignment (KBit o) x [] (ty x) (ty x) Store e = Done c /\ assigns c env x (convert (ty x) w).
Proof.
  intros env x o e t v u w H G E. unfold bit_value in E. cbn [fst snd] in E. injection E as Eu Ew. rewrite Eu in Ew.
  assert (AU : arithmetic u) by (rewrite <- Eu; apply arithmetic_usual).
  eapply punt_ok; [exact H|exact G|symmetry; exact Eu| | |reflexivity].
  - pose proof (bit_computes o u _ _ AU (convert_range u (env x)) (convert_range u v)) as K. rewrite Ew in K.
    destruct o; cbn [bit_kind punt_kind] in *; rewrite arithmetic_size4 in K by exact AU; rewrite arithmetic_kind by exact AU; exact K.
  - apply object_of; [|apply arithmetic_bool, AU]. rewrite <- Ew. apply bit_sem_range; apply convert_range.
Qed.

(** Shifts of a [_Bool] are done in the common type; the amount is not narrowed. *)
Lemma shift_computes : forall (left : bool) u x k, arithmetic u -> in_range u x -> in_range u k -> 0 <= k < width u ->
  computes (if left then Left_shift u else Right_shift u) u x k u (if left then convert u (x * 2 ^ k) else x / 2 ^ k).
Proof.
  intros left u x k A X RK K a b Ya Yb.
  exists (Value (width u) ((if left then x * 2 ^ k else x / 2 ^ k) mod 2 ^ width u)). split; [|split; [exact I|]].
  - intro s. pose proof (fetch_yields _ _ _ Ya) as F. rewrite <- bits_width in F.
    assert (EK : contents m b = k).
    { destruct Yb as [_ Yb]. rewrite Yb. apply Z.mod_small. split; [lia|].
      apply Z.lt_le_trans with (width u); [lia|]. destruct A as [->|[->|[->| ->]]]; cbn; lia. }
    destruct left; cbn [LowerModel.step]; rewrite F; cbn [rbind]; rewrite EK, !bits_width;
      [rewrite (shift_ok true)|rewrite (shift_ok false)]; auto.
  - apply value_yields. destruct left; [|reflexivity]. symmetry. apply convert_mod, arithmetic_bool, A.
Qed.


Lemma convert_pow : forall t k, t <> TBool -> 0 <= k < width t -> convert t (2 ^ k) <> 0.
Proof.
  intros t k N K E. pose proof (convert_mod t (2 ^ k) N) as M. rewrite E in M. 
  rewrite Z.mod_0_l in M by (apply Z.pow_nonzero; lia).
  rewrite Z.mod_small in M; [pose proof (pow2_pos k ltac:(lia)); lia|].
  split; [apply Z.pow_nonneg; lia|apply Z.pow_lt_mono_r; lia].
Qed.

Lemma small_range : forall u k, arithmetic u -> 0 <= k < 64 -> in_range u k.
Proof. intros u k [->|[->|[->| ->]]] K; unfold in_range; cbn; lia. Qed.

Lemma punt_bool_shift : forall env x (left : bool) e t v u w, holds ty env m -> ty x = TBool -> good e t v ->
  (if left then shl_value (ty x, env x) (t, v) else shr_value (ty x, env x) (t, v)) = Some (u, w) ->
  exists c, punt_compound_assignment (if left then KShl else KShr) x [] (ty x) (ty x) Store e = Done c /\
    assigns c env x (convert (ty x) w).
Proof.
  intros env x left e t v u w H TB G E.
  assert (K : 0 <= v < 32 /\ w = if left then convert S32 (env x * 2 ^ v) else env x / 2 ^ v).
  { unfold shl_value, shr_value in E. rewrite TB in E. cbn [fst snd promote rank] in E.
    destruct left; (change (width (promote TBool)) with 32 in E; destruct ((0 <=? v) && (v <? 32)) eqn:K; [|discriminate]);
      injection E as <- <-; (split; [lia|reflexivity]). }
  destruct K as [K ->]. set (r := usual_int (ty x) t).
  assert (A : arithmetic r) by apply arithmetic_usual.
  assert (W : 32 <= width r) by (destruct A as [E0|[E0|[E0|E0]]]; rewrite E0; cbn; lia).
  assert (NB : r <> TBool) by apply arithmetic_bool, A.
  assert (B : env x = 0 \/ env x = 1) by (apply (proj1 (H x)), TB).
  assert (Rx : in_range r (env x)) by (apply small_range; [exact A|lia]).
  assert (Rv : in_range r v) by (apply small_range; [exact A|lia]).
  eapply punt_ok with (u := r) (w := if left then convert r (env x * 2 ^ v) else env x / 2 ^ v); [exact H|exact G|reflexivity| | |].
  - rewrite !(convert_in r) by auto. pose proof (shift_computes left r (env x) v A Rx Rv ltac:(lia)) as S.
    destruct left; exact S.
  - apply shift_range; auto. lia.
  - rewrite TB. destruct left; [|reflexivity]. destruct B as [->| ->].
    + rewrite Z.mul_0_l, !convert_zero. reflexivity.
    + rewrite Z.mul_1_l.
      assert (B1 : forall z, z <> 0 -> convert TBool z = 1) by (intros z Hz; cbn [convert]; apply Z.eqb_neq in Hz; rewrite Hz; reflexivity).
      pose proof (convert_pow r v NB ltac:(lia)) as P1. pose proof (convert_pow S32 v ltac:(discriminate) ltac:(cbn; lia)) as P2.
      rewrite !B1 by assumption. reflexivity.
Qed.

Lemma direct_shift : forall env x (left : bool) e t v u w, holds ty env m -> ty x <> TBool -> good e t v ->
  (if left then shl_value (ty x, env x) (t, v) else shr_value (ty x, env x) (t, v)) = Some (u, w) ->
  assigns ([Identifier x] ++ emit (cast_expr U8 e) ++ [if left then Left_shift_assignment (ty x) else Right_shift_assignment (ty x)])
    env x (convert (ty x) w).
Proof.
  intros env x left e t v u w H NB G E. pose proof (width_pos (ty x)) as WP.
  assert (K : 0 <= v < width (promote (ty x)) /\ w = if left then convert (promote (ty x)) (env x * 2 ^ v) else env x / 2 ^ v).
  { unfold shl_value, shr_value in E. cbn [fst snd] in E.
    destruct left; (destruct ((0 <=? v) && (v <? width (promote (ty x)))) eqn:K; [|discriminate]);
      injection E as <- <-; (split; [lia|reflexivity]). }
  destruct K as [K ->]. destruct (H x) as [O M]. pose proof (object_in _ _ O) as R.
  assert (V64 : 0 <= v < 64) by (destruct (arithmetic_promote (ty x)) as [E0|[E0|[E0|E0]]]; rewrite E0 in K; cbn in K; lia).
  pose proof (cast_good U8 e t v G) as G'. rewrite (convert_in U8) in G' by (try discriminate; unfold in_range; cbn; lia).
  destruct (good_emit _ _ _ G') as (c & X & [_ Y] & _). rewrite Z.mod_small in Y by (cbn; lia).
  set (w := convert (ty x) (if left then convert (promote (ty x)) (env x * 2 ^ v) else env x / 2 ^ v)).
  assert (SH : shift left (ty x) (env x mod 2 ^ width (ty x)) v = w mod 2 ^ width (ty x)).
  { unfold shift. rewrite bits_width.
    assert (A : amount (width (ty x)) (wrapu 8 v) = v).
    { unfold amount. rewrite wrapu_id by lia. apply Z.mod_small.
      destruct (ty x); cbn in K |- *; lia. }
    rewrite A. unfold w. rewrite convert_mod by exact NB. destruct left.
    - rewrite wrapu_width, convert_low; [|apply arithmetic_bool, arithmetic_promote|pose proof (promote_wider (ty x)); lia].
      apply Z.mul_mod_idemp_l. apply Z.pow_nonzero; lia.
    - rewrite wrapu_width, number_of by exact R. reflexivity. }
  exists (Location x), (update m x (w mod 2 ^ width (ty x))). split; [|split].
  - intro s. cbn [app LowerModel.exec LowerModel.step rbind fst snd].
    rewrite (exec_app_next _ _ _ _ (X _)), exec_one.
    assert (S1 : shift_assignment vb left (ty x) (c :: Location x :: s) m = Next (Location x :: s, update m x (w mod 2 ^ width (ty x)))).
    { cbn [shift_assignment]. rewrite bits_width, (fetch_variable env x H). cbn [rbind]. rewrite Y, SH. reflexivity. }
    destruct left; exact S1.
  - unfold fetch. cbn [operand_bits contents]. change (vb x) with (bits (ty x)). rewrite bits_width, Z.eqb_refl.
    unfold update. rewrite Nat.eqb_refl. reflexivity.
  - apply holds_update; [exact H|apply convert_object].
Qed.

Lemma direct_ring : forall env x o e t v u w, holds ty env m -> ty x <> TBool -> good e t v ->
  o = OAdd \/ o = OSub \/ o = OMul ->
  arith_value o (ty x, env x) (t, v) = Some (u, w) ->
  assigns ([Identifier x] ++ emit (cast_expr (ty x) e) ++
     [match o with OAdd => Add_assignment (kind_u8 (ty x)) | OSub => Subtract_assignment (kind_u8 (ty x)) | _ => Multiply_assignment (ty x) end])
    env x (convert (ty x) w).
Proof.
  intros env x o e t v u w H NB G D E. pose proof (width_pos (ty x)) as WP.
  destruct (H x) as [O M]. pose proof (object_in _ _ O) as R.
  assert (PN : 2 ^ width (ty x) <> 0) by (apply Z.pow_nonzero; lia).
  assert (C : forall z, convert (usual_int (ty x) t) z mod 2 ^ width (ty x) = z mod 2 ^ width (ty x)).
  { intro z. apply convert_low; [apply usual_not_bool|]. pose proof (usual_wider (ty x) t). lia. }
  unfold arith_value in E. cbn [fst snd] in E.
  destruct D as [->|[->| ->]]; cbn [arith_sem bind] in E; injection E as <- <-.
  - eapply in_place with (t := t) (v := v) (f := fun a b => Next (wrapu (width (ty x)) (a + b))); [exact H|exact G| | |apply convert_object].
    + intros s b B. cbn [LowerModel.step]. rewrite kind_u8_width by exact NB. rewrite (assignment_step env x b _ _ _ s H eq_refl B); reflexivity.
    + f_equal. rewrite wrapu_width, !convert_mod by exact NB. rewrite C.
      rewrite <- Zplus_mod. rewrite (Zplus_mod (convert _ _)), !C, <- Zplus_mod. reflexivity.
  - eapply in_place with (t := t) (v := v) (f := fun a b => Next (wrapu (width (ty x)) (a - b))); [exact H|exact G| | |apply convert_object].
    + intros s b B. cbn [LowerModel.step]. rewrite kind_u8_width by exact NB. rewrite (assignment_step env x b _ _ _ s H eq_refl B); reflexivity.
    + f_equal. rewrite wrapu_width, !convert_mod by exact NB. rewrite C.
      rewrite <- Zminus_mod. rewrite (Zminus_mod (convert _ _)), !C, <- Zminus_mod. reflexivity.
  - eapply in_place with (t := t) (v := v) (f := fun a b => Next (wrapu (bits (ty x)) (number (ty x) a * number (ty x) b))); [exact H|exact G| | |apply convert_object].
    + intros s b B. cbn [LowerModel.step]. rewrite (assignment_step env x b _ _ _ s H (bits_width _) B); reflexivity.
    + f_equal. rewrite bits_width, wrapu_width, !number_of by auto using convert_range.
      rewrite (convert_mod (ty x) (convert _ _)), C by exact NB.
      rewrite (Zmult_mod (env x)), (convert_mod (ty x) v), <- Zmult_mod by exact NB.
      rewrite (Zmult_mod (convert _ _)), !C, <- Zmult_mod. reflexivity.
Qed.

Lemma direct_bit : forall env x o e t v u w, holds ty env m -> ty x <> TBool -> good e t v ->
  bit_value o (ty x, env x) (t, v) = Some (u, w) ->
  assigns ([Identifier x] ++ emit (cast_expr (ty x) e) ++
     [match o with OAnd => And_assignment (kind_u8 (ty x)) | OOr => Or_assignment (kind_u8 (ty x)) | OXor => Xor_assignment (kind_u8 (ty x)) end])
    env x (convert (ty x) w).
Proof.
  intros env x o e t v u w H NB G E. pose proof (width_pos (ty x)) as WP.
  unfold bit_value in E. cbn [fst snd] in E. injection E as <- <-.
  assert (PN : 2 ^ width (ty x) <> 0) by (apply Z.pow_nonzero; lia).
  assert (C : forall z, convert (usual_int (ty x) t) z mod 2 ^ width (ty x) = z mod 2 ^ width (ty x)).
  { intro z. apply convert_low; [apply usual_not_bool|]. pose proof (usual_wider (ty x) t). lia. }
  assert (N : forall a, 0 <= a mod 2 ^ width (ty x) < 2 ^ width (ty x)) by (intro a; apply Z.mod_pos_bound; apply pow2_pos; lia).
  eapply in_place with (t := t) (v := v) (f := fun a b => Next (bit_sem o a b)); [exact H|exact G| | |apply convert_object].
  - intros s b B. destruct o; cbn [LowerModel.step]; rewrite kind_u8_width by exact NB; rewrite (assignment_step env x b _ _ _ s H eq_refl B); reflexivity.
  - f_equal. rewrite (convert_mod (ty x) (bit_sem _ _ _)) by exact NB. symmetry.
    rewrite (bit_sem_mod o (convert _ _) _ (env x mod 2 ^ width (ty x)) (convert (ty x) v mod 2 ^ width (ty x)) (width (ty x)) ltac:(lia)).
    + apply Z.mod_small. 
      assert (RU : forall z, in_range U64 z <-> 0 <= z < 2 ^ 64) by (intro z; unfold in_range; cbn; lia).
      set (a := env x mod 2 ^ width (ty x)) in *. set (b := convert (ty x) v mod 2 ^ width (ty x)) in *.
      assert (E : bit_sem o a b = bit_sem o a b mod 2 ^ width (ty x)).
      { pose proof (N (env x)) as Na. pose proof (N (convert (ty x) v)) as Nb. fold a in Na. fold b in Nb.
        rewrite <- Z.land_ones by lia. apply Z.bits_inj'. intros k Hk. rewrite Z.land_spec, Z.testbit_ones_nonneg by lia.
        destruct (Z.ltb_spec k (width (ty x))); [rewrite andb_true_r; reflexivity|rewrite andb_false_r].
        assert (Ta : Z.testbit a k = false) by (rewrite <- (Z.mod_small a (2 ^ width (ty x))) by exact Na; apply Z.mod_pow2_bits_high; lia).
        assert (Tb : Z.testbit b k = false) by (rewrite <- (Z.mod_small b (2 ^ width (ty x))) by exact Nb; apply Z.mod_pow2_bits_high; lia).
        destruct o; cbn [bit_sem]; rewrite ?Z.land_spec, ?Z.lor_spec, ?Z.lxor_spec, Ta, Tb; reflexivity. }
      rewrite E. apply Z.mod_pos_bound, pow2_pos. lia.
    + rewrite C. symmetry. apply Z.mod_mod, PN.
    + rewrite C, convert_mod by exact NB. symmetry. apply Z.mod_mod, PN.
Qed.

Lemma direct_divide : forall env x (rm : bool) e t v u w, holds ty env m -> ty x <> TBool -> good e t v ->
  (usual_int (ty x) t = ty x \/
   convert (usual_int (ty x) t) (env x) = env x /\ convert (usual_int (ty x) t) v = v /\ convert (ty x) v = v /\
   representable (ty x) (Z.quot (env x) v) = true) ->
  arith_value (if rm then OMod else ODiv) (ty x, env x) (t, v) = Some (u, w) ->
  assigns ([Identifier x] ++ emit (cast_expr (ty x) e) ++ [if rm then Modulo_assignment (ty x) else Divide_assignment (ty x)])
    env x (convert (ty x) w).
Proof.
  intros env x rm e t v u w H NB G D E. destruct (H x) as [O M]. pose proof (object_in _ _ O) as R.
  unfold arith_value in E. cbn [fst snd] in E.
  destruct (arith_sem (if rm then OMod else ODiv) (usual_int (ty x) t) (convert (usual_int (ty x) t) (env x)) (convert (usual_int (ty x) t) v)) as [w0|] eqn:A; [|discriminate].
  cbn [bind] in E. injection E as <- ->.
  assert (A' : arith_sem (if rm then OMod else ODiv) (ty x) (env x) (convert (ty x) v) = Some w).
  { destruct D as [D|(D1 & D2 & D3 & D4)].
    - rewrite D in A. rewrite (convert_in (ty x) (env x)) in A by auto. exact A.
    - rewrite D1, D2 in A. rewrite D3. destruct rm; cbn [arith_sem] in *; (destruct (v =? 0); [discriminate|]);
        rewrite D4; destruct (representable _ _) in A; congruence. }
  assert (RW : in_range (ty x) w).
  { pose proof (convert_range (ty x) v) as RV.
    destruct rm; cbn [arith_sem] in A'; destruct (convert (ty x) v =? 0) eqn:Z0; try discriminate;
      (destruct (representable (ty x) (Z.quot (env x) (convert (ty x) v))) eqn:P; [|discriminate]); injection A' as <-.
    - apply Z.eqb_neq in Z0. pose proof (Z.rem_bound_abs (env x) (convert (ty x) v) Z0) as B.
      clear - RV R B Z0. unfold in_range, minv, maxv in *. destruct (signed (ty x)).
      + lia.
      + pose proof (Z.rem_bound_pos (env x) (convert (ty x) v) ltac:(lia) ltac:(lia)). lia.
    - unfold representable in P. unfold in_range. lia. }
  eapply in_place with (t := t) (v := v) (f := divide rm (ty x)); [exact H|exact G| | |apply convert_object].
  - intros s b B. destruct rm; cbn [LowerModel.step]; rewrite (assignment_step env x b _ _ _ s H (bits_width _) B); reflexivity.
  - rewrite (convert_in (ty x) w) by auto. apply (divide_ok rm); auto using convert_range.
Qed.

Lemma literal_zero_ok : forall e t v, good e t v -> v <> 0 -> literal_zero e = false.
Proof.
  intros e t v (T & O & L) N. unfold literal_zero. destruct (literal e) as [l|]; [|reflexivity].
  rewrite as_u64_zero. destruct L as [_ ->]. apply Z.eqb_neq, N.
Qed.

Lemma size_width : forall t, size t = width t / 8.
Proof. destruct t; reflexivity. Qed.

Lemma must_punt_ok : forall T e t v const, lowered e t v const -> 
  width T < width t /\ (const = false \/ v < 0 \/ 2 ^ (width T / 8) <= v) -> must_punt (size T) e = true.
Proof.
  intros T e t v const [(Te & O & L) LC] [W D]. unfold must_punt. rewrite Te.
  assert (P : (size T <? size t) = true) by (clear - W; destruct T, t; cbn in W |- *; first [reflexivity|lia]).
  rewrite P. destruct (literal e) as [l|] eqn:LE; [|reflexivity].
  destruct L as [Lt Lv]. destruct (Z.ltb_spec (integer_literal_as_u64 l) (2 ^ size T)) as [B|B]; [|reflexivity]. exfalso.
  unfold integer_literal_as_u64 in B. rewrite read_value, Lv, size_width in B.
  pose proof (in_range_64 l) as R. rewrite Lv in R.
  assert (S8 : 2 ^ (width T / 8) <= 2 ^ 8) by (apply Z.pow_le_mono_r; [lia|destruct T; cbn; lia]).
  destruct D as [D|[D|D]].
  - assert (Some l = None) by tauto. discriminate.
  - unfold wrapu in B. rewrite <- (Z_mod_plus_full v 1), Z.mod_small in B by lia. lia.
  - rewrite wrapu_id in B by lia. lia.
Qed.

Lemma compound_ok : forall env x k e t v u w const, holds ty env m -> lowered e t v const ->
  compound_value k (ty x, env x) (t, v) = Some (u, w) ->
  compound_kept k (ty x) t const (env x) v ->
  exists c, lower_compound ty k x e = Done c /\ assigns c env x (convert (ty x) w).
Proof.
  intros env x k e t v u w const H L E Kp. pose proof (proj1 L) as G. unfold lower_compound. cbv zeta.
  destruct (ity_eqb_spec (ty x) TBool) as [TB|NB].
  - (* everything punts *)
    destruct k as [o|o| |]; cbn [compound_value] in E.
    + pose proof (punt_arith env x o e t v u w H G E) as P.
      assert (NZ : o = ODiv \/ o = OMod -> literal_zero e = false).
      { intros D. apply (literal_zero_ok e t v G). intros ->. unfold arith_value in E. cbn [fst snd] in E. rewrite convert_zero in E.
        destruct D as [-> | ->]; discriminate. }
      destruct o; cbn [orb]; rewrite ?NZ by auto; exact P.
    + pose proof (punt_bit env x o e t v u w H G E) as P. destruct o; exact P.
    + exact (punt_bool_shift env x true e t v u w H TB G E).
    + exact (punt_bool_shift env x false e t v u w H TB G E).
  - destruct k as [o|o| |]; cbn [compound_value compound_kept] in E, Kp; cbn [orb].
    + assert (NZ : o = ODiv \/ o = OMod -> literal_zero e = false).
      { intros D. apply (literal_zero_ok e t v G). intros ->. unfold arith_value in E. cbn [fst snd] in E. rewrite convert_zero in E.
        destruct D as [-> | ->]; discriminate. }
      assert (DV : forall rm : bool, o = (if rm then OMod else ODiv) -> division_kept (ty x) t const (env x) v ->
        exists c, (if must_punt (size (ty x)) e then punt_compound_assignment (KArith o) x [] (ty x) (ty x) Store e
                   else Done ([Identifier x] ++ emit (cast_expr (ty x) e) ++ [if rm then Modulo_assignment (ty x) else Divide_assignment (ty x)])) = Done c /\
                  assigns c env x (convert (ty x) w)).
      { intros rm -> Dk. destruct (must_punt (size (ty x)) e) eqn:MP; [apply (punt_arith env x _ e t v u w H G E)|].
        eexists. split; [reflexivity|]. eapply direct_divide; [exact H|exact NB|exact G| |exact E].
        destruct Dk as [Dk|[Dk|Dk]]; [contradiction| |exact Dk].
        rewrite (must_punt_ok _ _ _ _ _ L Dk) in MP. discriminate. }
      destruct o.
      * eexists. split; [reflexivity|]. exact (direct_ring env x OAdd e t v u w H NB G ltac:(auto) E).
      * eexists. split; [reflexivity|]. exact (direct_ring env x OSub e t v u w H NB G ltac:(auto) E).
      * destruct (must_punt (size (ty x)) e); [apply (punt_arith env x _ e t v u w H G E)|].
        eexists. split; [reflexivity|]. exact (direct_ring env x OMul e t v u w H NB G ltac:(auto) E).
      * rewrite NZ by auto. exact (DV false eq_refl Kp).
      * rewrite NZ by auto. exact (DV true eq_refl Kp).
    + pose proof (direct_bit env x o e t v u w H NB G E) as P. destruct o; (eexists; split; [reflexivity|exact P]).
    + eexists. split; [reflexivity|]. exact (direct_shift env x true e t v u w H NB G E).
    + eexists. split; [reflexivity|]. exact (direct_shift env x false e t v u w H NB G E).
Qed.

(** ** ++ and -- *)
Lemma step_ok : forall env x (post increment : bool), holds ty env m ->
  exists r m', 
    (forall s, exec (lower_step ty post increment x) s m = Next (r :: s, m')) /\
    let v := convert (ty x) (if increment then env x + 1 else env x - 1) in
    fetch vb m' (width (ty x)) r = Next ((if post then env x else v) mod 2 ^ width (ty x)) /\
    holds ty (assigned env x v) m'.
Proof.
  intros env x post increment H. set (v := convert (ty x) (if increment then env x + 1 else env x - 1)). cbv zeta.
  pose proof (fetch_variable env x H) as F. pose proof (width_pos (ty x)) as WP.
  exists (Value (width (ty x)) ((if post then env x else v) mod 2 ^ width (ty x))), (update m x (v mod 2 ^ width (ty x))).
  assert (SV : forall n f, n = width (ty x) -> f (env x mod 2 ^ width (ty x)) = v mod 2 ^ width (ty x) ->
     forall s, step_variable vb post n f (Location x :: s) m =
     Next (Value (width (ty x)) ((if post then env x else v) mod 2 ^ width (ty x)) :: s, update m x (v mod 2 ^ width (ty x)))).
  { intros n f -> Hf s. cbn [step_variable]. rewrite F. cbn [rbind]. rewrite Hf. destruct post; reflexivity. }
  split; [|split; [|apply holds_update; [exact H|apply convert_object]]].
  - intro s. unfold lower_step.
    change (exec [Identifier x; match ty x with
     | TBool => if increment then Increment_bool post else Decrement_bool post
     | S8 | U8 => if increment then Increment post 8 else Decrement post 8
     | S16 | U16 => if increment then Increment post 16 else Decrement post 16
     | S32 | U32 => if increment then Increment post 32 else Decrement post 32
     | S64 | U64 => if increment then Increment post 64 else Decrement post 64
     end] s m) with (exec [match ty x with
     | TBool => if increment then Increment_bool post else Decrement_bool post
     | S8 | U8 => if increment then Increment post 8 else Decrement post 8
     | S16 | U16 => if increment then Increment post 16 else Decrement post 16
     | S32 | U32 => if increment then Increment post 32 else Decrement post 32
     | S64 | U64 => if increment then Increment post 64 else Decrement post 64
     end] (Location x :: s) m).
    rewrite exec_one. destruct (ity_eqb_spec (ty x) TBool) as [TB|NB].
    + assert (B : env x = 0 \/ env x = 1) by (apply (proj1 (H x)), TB).
      assert (W8 : 8 = width (ty x)) by (rewrite TB; reflexivity).
      rewrite TB at 1. destruct increment; cbn [LowerModel.step]; apply SV; try exact W8; unfold v; rewrite TB;
        destruct B as [-> | ->]; reflexivity.
    + assert (NI : forall n, n = width (ty x) -> step (if increment then Increment post n else Decrement post n) (Location x :: s) m =
         Next (Value (width (ty x)) ((if post then env x else v) mod 2 ^ width (ty x)) :: s, update m x (v mod 2 ^ width (ty x)))).
      { intros n ->. destruct increment; cbn [LowerModel.step]; apply SV; try reflexivity; unfold v; rewrite wrapu_width, convert_mod by exact NB.
        - apply Z.add_mod_idemp_l, Z.pow_nonzero; lia.
        - rewrite Zminus_mod_idemp_l. reflexivity. }
      destruct (ty x) eqn:T; try congruence; rewrite <- T in *;
        first [ exact (NI 8 ltac:(rewrite T; reflexivity)) | exact (NI 16 ltac:(rewrite T; reflexivity))
              | exact (NI 32 ltac:(rewrite T; reflexivity)) | exact (NI 64 ltac:(rewrite T; reflexivity)) ].
  - unfold fetch. cbn [operand_bits contents]. rewrite Z.eqb_refl. reflexivity.
Qed.

(** ** Compound assignments to a bit-field *)

(** [x] is the storage unit of the field. *)
Definition field_assigns (c : list ir) (x : nat) (index w v : Z) : Prop :=
  exists m', (forall s, exec c s m = Next (Location x :: s, m')) /\
    replaced (ty x) index w (m x) v (m' x) /\
    forall y, y <> x -> m' y = m y.

Lemma operand_width : forall t w, 1 <= w <= width t -> width (bitfield_operand_type t w) = if w <=? 32 then 32 else 64.
Proof.
  intros t w W. unfold bitfield_operand_type. destruct (Z.ltb_spec w 32), (Z.leb_spec w 32), (Z.eqb_spec w 32); try lia;
    try (destruct (type_is_signed t); reflexivity); try reflexivity.
  destruct t; cbn in *; lia.
Qed.

Lemma field_in : forall t index w u, fits_unit t index w -> in_range (bitfield_operand_type t w) (field_value t index w u).
Proof.
  intros t index w u (W & I & F). unfold field_value. 
  pose proof (reduced_range t w (u / 2 ^ index) W) as (R1 & R2 & R3).
  assert (Lw : forall n, 0 <= n -> w <= n -> 2 ^ w <= 2 ^ n) by (intros; apply Z.pow_le_mono_r; lia).
  assert (Lw1 : forall n, 0 <= n -> w - 1 <= n -> 2 ^ (w - 1) <= 2 ^ n) by (intros; apply Z.pow_le_mono_r; lia).
  unfold bitfield_operand_type. destruct (Z.ltb_spec w 32).
  - pose proof (Lw 31 ltac:(lia) ltac:(lia)). pose proof (Lw1 31 ltac:(lia) ltac:(lia)). unfold in_range. cbn in *. lia.
  - destruct (Z.eqb_spec w 32) as [->|].
    + rewrite signed_eq. destruct (signed t) eqn:S.
      * specialize (R2 eq_refl). unfold in_range. cbn in *. lia.
      * specialize (R3 eq_refl). unfold in_range. cbn in *. lia.
    + unfold in_range, minv, maxv. pose proof (Lw (width t) ltac:(lia) ltac:(lia)). pose proof (Lw1 (width t - 1) ltac:(lia) ltac:(lia)).
      destruct (signed t) eqn:S; [specialize (R2 eq_refl)|specialize (R3 eq_refl)]; lia.
Qed.

Lemma operand_arithmetic : forall t w, 1 <= w <= width t -> arithmetic (bitfield_operand_type t w).
Proof.
  intros t w W. unfold bitfield_operand_type, arithmetic. destruct (Z.ltb_spec w 32); [auto|].
  destruct (Z.eqb_spec w 32); [destruct (type_is_signed t); auto|].
  destruct t; cbn in W; try lia; auto.
Qed.

Lemma punt_field : forall x k index w e t v u r, fits_unit (ty x) index w -> w < 64 -> 0 <= m x < 2 ^ width (ty x) ->
  good e t v -> u = usual_int (bitfield_operand_type (ty x) w) t ->
  computes (punt_kind k u) u (convert u (field_value (ty x) index w (m x))) (convert u v) u r -> object_value u r ->
  exists c, punt_compound_assignment k x [Load_bitfield true (mkbitfield (ty x) index w)]
      (bitfield_operand_type (ty x) w) (ty x) (Store_bitfield (mkbitfield (ty x) index w)) e = Done c /\
    field_assigns c x index w (convert (ty x) r).
Proof.
  intros x k index w e t v u r FU W64 MX G U K O. pose proof FU as (W1 & I1 & F1).
  set (what := bitfield_operand_type (ty x) w) in *. set (b := mkbitfield (ty x) index w).
  set (old := field_value (ty x) index w (m x)) in *.
  assert (AW : arithmetic what) by (apply operand_arithmetic; lia).
  assert (RO : in_range what old) by (apply field_in, FU).
  unfold punt_compound_assignment. rewrite (proj1 G), usual_int_eq, <- U.
  (* the loaded field *)
  set (cx := Value (width what) (old mod 2 ^ width what)).
  assert (LD : forall a s, step (Load_bitfield true b) (a :: Location x :: s) m = Next (a :: cx :: s, m)).
  { intros a s. cbn [LowerModel.step]. unfold fetch. cbn [operand_bits contents]. change (vb x) with (bits (ty x)). cbn [base_type b].
    rewrite Z.eqb_refl. cbn [rbind]. pose proof (load_register (ty x) index w (m x) (m x) FU eq_refl) as L. fold old b in L.
    pose proof (load_size b (m x)) as Sz. destruct (emit_load_bitfield b (m x)) as [n z]. cbn [fst snd] in *.
    cbn [field_width b] in Sz. rewrite <- (operand_width (ty x) w) in Sz by lia. fold what in Sz. subst n.
    unfold cx. do 4 f_equal. rewrite wrapu_width.
    pose proof (unit_bits_cases (ty x)) as [UB1 UB2]. pose proof (operand_width (ty x) w ltac:(lia)) as OW. fold what in OW.
    assert (LE : 0 <= width what <= unit_bits (ty x)).
    { rewrite OW. destruct (Z.leb_spec w 32); lia. }
    rewrite <- (mod_mod_pow z (unit_bits (ty x))), L, mod_mod_pow by lia. reflexivity. }
  assert (Yx : yields cx what old) by (apply value_yields; reflexivity).
  assert (CX : exists cx', (forall a s, exec (snd (push_cast_expr true u (mkexpr [] what None))) (a :: cx :: s) m = Next (a :: cx' :: s, m)) /\
             yields cx' u (convert u old)).
  { unfold push_cast_expr. cbn [resolved_type literal]. destruct (ity_eqb_spec what u) as [E|E]; cbn [snd].
    - exists cx. split; [reflexivity|]. rewrite <- E, convert_self by (apply object_of; [exact RO|apply arithmetic_bool, AW]). exact Yx.
    - destruct (cast_ok cx what u old Yx (object_of _ _ RO (arithmetic_bool _ AW)) I) as (c' & [_ C2] & _ & Y'). exists c'. split; [exact C2|exact Y']. }
  destruct CX as (cx' & Cx & Yx').
  pose proof (push_ok false u e t v G) as (_ & ce & ce' & Xe & Ce & _ & Ye & _).
  destruct (K cx' ce' Yx' Ye) as (c & St & Rc & Yc).
  assert (CT : exists c', (forall s, exec (snd (push_cast_expr false (ty x) (mkexpr [] u None))) (c :: s) m = Next (c' :: s, m)) /\
             yields c' (ty x) (convert (ty x) r)).
  { unfold push_cast_expr. cbn [resolved_type literal]. destruct (ity_eqb_spec u (ty x)) as [E|E]; cbn [snd].
    - exists c. split; [reflexivity|]. rewrite <- E, convert_self by exact O. exact Yc.
    - destruct (cast_ok c u (ty x) r Yc O Rc) as (c' & [C1 _] & _ & Y'). exists c'. split; [exact C1|exact Y']. }
  destruct CT as (c' & Ct & Yt).
  destruct (push_cast_expr true u (mkexpr [] what None)) as [x' kx].
  destruct (push_cast_expr false u e) as [e' ke].
  destruct (push_cast_expr false (ty x) (mkexpr [] u None)) as [u' ku]. cbn [fst snd] in *.
  eexists. split; [reflexivity|].
  exists (update m x (emit_store_bitfield b (m x) (convert (ty x) r mod 2 ^ width (ty x)))).
  split; [|split].
  - intro s. cbn [app]. cbn [LowerModel.exec]. cbn [LowerModel.step rbind fst snd].
    rewrite (exec_app_next _ _ _ _ (Xe _)). cbn [app].
    change (Duplicate_lhs :: Load_bitfield true b :: kx ++ ke ++ punt_kind k u :: ku ++ [Store_bitfield b])
      with ([Duplicate_lhs] ++ [Load_bitfield true b] ++ kx ++ ke ++ [punt_kind k u] ++ ku ++ [Store_bitfield b]).
    assert (D1 : forall s, exec [Duplicate_lhs] (ce :: Location x :: s) m = Next (ce :: Location x :: Location x :: s, m)) by reflexivity.
    assert (S0 : forall a s, exec [Load_bitfield true b] (a :: Location x :: s) m = Next (a :: cx :: s, m)) by (intros; rewrite exec_one; apply LD).
    assert (S1 : forall s, exec [punt_kind k u] (ce' :: cx' :: s) m = Next (c :: s, m)) by (intro s0; rewrite exec_one; apply St).
    rewrite (exec_app_next _ _ _ _ (D1 _)), (exec_app_next _ _ _ _ (S0 _ _)), (exec_app_next _ _ _ _ (Cx _ _)),
      (exec_app_next _ _ _ _ (Ce eq_refl _)), (exec_app_next _ _ _ _ (S1 _)), (exec_app_next _ _ _ _ (Ct _)), exec_one.
    cbn [LowerModel.step]. cbn [base_type b]. rewrite bits_width, (fetch_yields _ _ _ Yt).
    unfold fetch. cbn [operand_bits contents]. change (vb x) with (bits (ty x)). rewrite bits_width, Z.eqb_refl. reflexivity.
  - unfold update. rewrite Nat.eqb_refl. apply store_replaces; try assumption; [reflexivity|].
    apply Z.mod_mod, Z.pow_nonzero; lia.
  - intros y N. unfold update. destruct (Nat.eqb_spec y x); congruence.
Qed.

Lemma kept_wider : forall a b z, in_range a z -> arithmetic a -> 0 <= z \/ signed (usual_int a b) = true -> in_range (usual_int a b) z.
Proof.
  intros a b z R A D. unfold in_range in *.
  destruct A as [->|[->|[->| ->]]]; destruct b; cbn in *; lia.
Qed.

Lemma usual_promoted : forall a, arithmetic a -> promote a = a.
Proof. intros a [->|[->|[->| ->]]]; reflexivity. Qed.

(** The same bits are stored. *)
Lemma replaced_cong : forall t index w u v v' u', fits_unit t index w -> v mod 2 ^ w = v' mod 2 ^ w ->
  replaced t index w u v u' -> replaced t index w u v' u'.
Proof.
  intros t index w u v v' u' (W & I & F) E [R B]. split; [exact R|]. intros i Hi. rewrite B by exact Hi.
  destruct ((index <=? i) && (i <? index + w)) eqn:C; [|reflexivity].
  apply andb_true_iff in C. destruct C as [C1 C2]. apply Z.leb_le in C1. apply Z.ltb_lt in C2.
  rewrite <- (Z.mod_pow2_bits_low v w), <- (Z.mod_pow2_bits_low v' w), E by lia. reflexivity.
Qed.

Lemma field_assigns_cong : forall c x index w v v', fits_unit (ty x) index w -> v mod 2 ^ w = v' mod 2 ^ w ->
  field_assigns c x index w v -> field_assigns c x index w v'.
Proof.
  intros c x index w v v' F E (m' & X & R & Y). exists m'. split; [exact X|]. split; [|exact Y].
  eapply replaced_cong; eauto.
Qed.

Lemma field_compound_ok : forall x k index w e t v u r const, fits_unit (ty x) index w -> w < 64 ->
  (ty x = TBool -> w = 1) -> 0 <= m x < 2 ^ width (ty x) -> lowered e t v const ->
  let old := field_value (ty x) index w (m x) in
  let what := bitfield_operand_type (ty x) w in
  compound_value k (what, old) (t, v) = Some (u, r) ->
  (k = KShr -> 0 <= old \/ signed (usual_int what t) = true) ->
  exists c, lower_bitfield_compound k x (mkbitfield (ty x) index w) e = Done c /\
    field_assigns c x index w (convert (ty x) r).
Proof.
  intros x k index w e t v u r const FU W64 BW MX L old what E Sh. pose proof (proj1 L) as G.
  pose proof FU as (W1 & I1 & F1).
  assert (AW : arithmetic what) by (apply operand_arithmetic; lia).
  assert (RO : in_range what old) by (apply field_in, FU).
  assert (AU : arithmetic (usual_int what t)) by apply arithmetic_usual.
  unfold lower_bitfield_compound. cbn [base_type field_width].
  destruct k as [o|o| |]; cbn [compound_value] in E.
  - pose proof E as E0. unfold arith_value in E. cbn [fst snd] in E.
    destruct (arith_sem o (usual_int what t) (convert (usual_int what t) old) (convert (usual_int what t) v)) as [r0|] eqn:A; [|discriminate].
    cbn [bind] in E. injection E as <- ->.
    assert (NZ : o = ODiv \/ o = OMod -> literal_zero e = false).
    { intros D. apply (literal_zero_ok e t v G). intros ->. rewrite convert_zero in A. destruct D as [-> | ->]; discriminate. }
    assert (P : exists c, punt_compound_assignment (KArith o) x [Load_bitfield true (mkbitfield (ty x) index w)] what (ty x) (Store_bitfield (mkbitfield (ty x) index w)) e = Done c /\
       field_assigns c x index w (convert (ty x) r)).
    { eapply punt_field; eauto.
      - pose proof (arith_computes o _ _ _ r AU (convert_range _ old) (convert_range _ v) A) as K. destruct o; exact K.
      - apply object_of; [|apply arithmetic_bool, AU]. eapply arith_range; [exact AU|..|exact A]; apply convert_range. }
    destruct o; rewrite ?NZ by auto; exact P.
  - unfold bit_value in E. cbn [fst snd] in E. injection E as <- <-.
    assert (P : exists c, punt_compound_assignment (KBit o) x [Load_bitfield true (mkbitfield (ty x) index w)] what (ty x) (Store_bitfield (mkbitfield (ty x) index w)) e = Done c /\
       field_assigns c x index w (convert (ty x) (bit_sem o (convert (usual_int what t) old) (convert (usual_int what t) v)))).
    { eapply punt_field; eauto.
      - pose proof (bit_computes o _ _ _ AU (convert_range _ old) (convert_range _ v)) as K.
        destruct o; cbn [bit_kind punt_kind] in *; rewrite arithmetic_size4 in K by exact AU; rewrite arithmetic_kind by exact AU; exact K.
      - apply object_of; [|apply arithmetic_bool, AU]. apply bit_sem_range; apply convert_range. }
    exact P.
  - unfold shl_value in E. cbn [fst snd] in E. rewrite usual_promoted in E by exact AW.
    destruct ((0 <=? v) && (v <? width what)) eqn:KV; [|discriminate]. injection E as <- <-.
    pose proof (usual_wider what t) as UW.
    assert (V64 : 0 <= v < 64) by (destruct AW as [E|[E|[E|E]]]; rewrite E in KV; cbn in KV; lia).
    assert (RV : in_range (usual_int what t) v) by (apply small_range; assumption).
    assert (NBu : usual_int what t <> TBool) by apply usual_not_bool.
    assert (NBw : what <> TBool) by apply arithmetic_bool, AW.
    destruct (punt_field x KShl index w e t v (usual_int what t) (convert (usual_int what t) (convert (usual_int what t) old * 2 ^ v)) FU W64 MX G eq_refl)
      as (c & Pc & As).
    + rewrite (convert_in _ v) by assumption.
      apply (shift_computes true); auto using convert_range. lia.
    + apply convert_object.
    + exists c. split; [exact Pc|]. destruct (ity_eqb_spec (ty x) TBool) as [TB|NB].
      * specialize (BW TB). assert (OB : old = 0 \/ old = 1).
        { unfold old, field_value, reduced. rewrite TB. cbn [signed]. rewrite BW. 
          pose proof (Z.mod_pos_bound (m x / 2 ^ index) (2 ^ 1) ltac:(cbn; lia)). cbn in *. lia. }
        rewrite TB in As |- *.
        assert (B1 : forall z, z <> 0 -> convert TBool z = 1) by (intros z Hz; cbn [convert]; apply Z.eqb_neq in Hz; rewrite Hz; reflexivity).
        rewrite (convert_in (usual_int what t) old NBu (small_range _ old AU ltac:(lia))) in As.
        destruct OB as [OB|OB]; rewrite OB in As |- *.
        -- rewrite Z.mul_0_l, convert_zero in As |- *. exact As.
        -- rewrite Z.mul_1_l in As |- *. rewrite !B1 in As by (apply convert_pow; [assumption|lia]). rewrite B1 by (apply convert_pow; [assumption|lia]). exact As.
      * eapply field_assigns_cong; [exact FU| |exact As].
        assert (Ww : w <= width what) by (unfold what; rewrite operand_width by lia; destruct (Z.leb_spec w 32); lia).
        rewrite !(convert_low (ty x)) by (auto; lia).
        rewrite (convert_low what), (convert_low (usual_int what t)) by (auto; lia).
        rewrite (Zmult_mod (convert _ _)), convert_low, <- Zmult_mod by (auto; lia). reflexivity.
  - unfold shr_value in E. cbn [fst snd] in E. rewrite usual_promoted in E by exact AW.
    destruct ((0 <=? v) && (v <? width what)) eqn:KV; [|discriminate]. injection E as <- <-.
    pose proof (usual_wider what t) as UW.
    assert (V64 : 0 <= v < 64) by (destruct AW as [E|[E|[E|E]]]; rewrite E in KV; cbn in KV; lia).
    assert (RV : in_range (usual_int what t) v) by (apply small_range; assumption).
    assert (RO' : in_range (usual_int what t) old) by (apply kept_wider; auto).
    assert (NBu : usual_int what t <> TBool) by apply usual_not_bool.
    apply punt_field with (t := t) (v := v) (u := usual_int what t); auto.
    + fold old. rewrite (convert_in _ v), (convert_in _ old) by assumption.
      apply (shift_computes false); auto. lia.
    + pose proof (shift_range false (usual_int what t) old v AU RO' ltac:(lia)) as S. exact S.
Qed.

(** ** Pointers *)

Definition pgood (q : pointer) (a : Z) : Prop :=
  match address q with
  | Some z => z mod 2 ^ 64 = a mod 2 ^ 64
  | None => exists c, (forall s, exec (pcode q) s m = Next (c :: s, m)) /\ yields c U64 a
  end.

Lemma yields_cong : forall c t v w, v mod 2 ^ width t = w mod 2 ^ width t -> yields c t v -> yields c t w.
Proof. intros c t v w E [B C]. split; [exact B|]. rewrite C. exact E. Qed.

Lemma yields_type : forall c t u v, width t = width u -> yields c t v -> yields c u v.
Proof. intros c t u v E [B C]. split; congruence. Qed.

Lemma literal_operand : forall l u v, width u = width (lty l) -> value l mod 2 ^ width u = v mod 2 ^ width u ->
  yields (Immediate (bits (lty l)) (integer_literal_as_u64 l)) u v.
Proof.
  intros l u v W E. pose proof (literal_yields l) as [B C]. split; [congruence|]. rewrite C, <- W. exact E.
Qed.

Lemma pgood_emit : forall q a, pgood q a ->
  exists c, (forall s, exec (pemit q) s m = Next (c :: s, m)) /\ yields c U64 a.
Proof.
  intros q a G. unfold pgood, pemit in *. destruct (address q) as [z|]; [|exact G].
  eexists. split; [intro s; reflexivity|]. apply (literal_operand (mklit U64 z) U64); [reflexivity|].
  unfold value. cbn [lty payload]. rewrite value_wrap, (wrap_t_cong U64). exact G.
Qed.

Lemma as_s64_mod : forall l, integer_literal_as_s64 l mod 2 ^ 64 = value l mod 2 ^ 64.
Proof.
  intros l. unfold integer_literal_as_s64. rewrite read_value. apply wraps_mod_pow. lia.
Qed.

Lemma scaled_value : forall size l, value (scaled_literal size l) mod 2 ^ 64 = (value l * size) mod 2 ^ 64.
Proof.
  intros size l. unfold scaled_literal. rewrite value_wrapu64. rewrite (wrap_t_cong U64). cbn [width].
  rewrite (Zmult_mod (value l) size), <- as_s64_mod. set (z := integer_literal_as_s64 l).
  assert (E : forall y, y mod 2 ^ 64 = z mod 2 ^ 64 -> (y * size) mod 2 ^ 64 = (z mod 2 ^ 64 * (size mod 2 ^ 64)) mod 2 ^ 64).
  { intros y Hy. rewrite Zmult_mod, Hy. reflexivity. }
  destruct (type_is_signed (lty l)); apply E; unfold wrapu; [rewrite wraps_mod_pow by lia|]; apply Z.mod_mod; lia.
Qed.

(** The scaled index, on top of the stack. *)
Lemma scale_ok : forall size e t v c, good e t v -> literal e = None ->
  (forall s, exec (code e) s m = Next (c :: s, m)) -> runtime c -> yields c t v ->
  exists c', (forall s, exec (scale_code size e) (c :: s) m = Next (c' :: s, m)) /\ yields c' U64 (v * size).
Proof.
  intros size e t v c (T & O & _) L X R Y. unfold scale_code.
  assert (C : exists c1, (forall s, exec (snd (push_cast_expr false S64 e)) (c :: s) m = Next (c1 :: s, m)) /\ yields c1 U64 v).
  { unfold push_cast_expr. rewrite L, T. destruct (ity_eqb_spec t S64) as [E|E]; cbn [snd].
    - exists c. split; [reflexivity|]. apply (yields_type c t U64); [rewrite E; reflexivity|exact Y].
    - destruct (cast_ok c t S64 v Y O R) as (c' & [C1 _] & _ & Y'). exists c'. split; [exact C1|].
      apply (yields_cong c' U64 (convert S64 v)); [apply (convert_mod S64); discriminate|]. apply (yields_type c' S64 U64 _ eq_refl Y'). }
  destruct C as (c1 & C1 & Y1). destruct (Z.eqb_spec size 1) as [->|N].
  - exists c1. split; [intro s; rewrite app_nil_r; apply C1|]. rewrite Z.mul_1_r. exact Y1.
  - set (l := mklit S64 size).
    assert (YL : yields (Immediate (bits (lty l)) (integer_literal_as_u64 l)) U64 size).
    { apply literal_operand; [reflexivity|]. unfold value. cbn [lty payload l]. rewrite value_wrap. apply (wrap_t_cong S64). }
    exists (Value 64 ((v * size) mod 2 ^ 64)). split; [|apply (value_yields U64); reflexivity].
    intro s. rewrite (exec_app_next _ _ _ _ (C1 s)). cbn [app LowerModel.exec]. cbn [LowerModel.step rbind fst snd]. fold l.
    cbn [binary]. change (bits U64) with (width U64). rewrite (fetch_yields _ _ _ Y1), (fetch_yields _ _ _ YL). cbn [rbind].
    do 4 f_equal. rewrite wrapu_width. unfold number. cbn [type_is_signed bits]. unfold wrapu. cbn [width fst snd].
    rewrite !(Z.mod_mod _ (2 ^ 64)) by discriminate. do 2 f_equal. symmetry. apply Zmult_mod.
Qed.

Definition plowered (q : pointer) (a : Z) (const : bool) : Prop :=
  pgood q a /\ (address q = None <-> const = false).

Lemma offset_ok : forall op (add : bool) swapped size q a e t v kp ke, plowered q a kp -> lowered e t v ke ->
  kp && ke = false -> (swapped = true -> add = true) ->
  op = (if add then Add 64 else Subtract 64) ->
  plowered (handle_pointer_arithmetic op add swapped size q e) (if add then a + v * size else a - v * size) (kp && ke).
Proof.
  intros op add swapped size q a e t v kp ke [G Lq] [Ge Le] NC SW ->. rewrite NC.
  destruct (pgood_emit q a G) as (cp & Xp & Yp).
  set (r := if add then a + v * size else a - v * size).
  assert (OP : forall c x y s, yields c U64 y -> yields x U64 a -> y mod 2 ^ 64 = (v * size) mod 2 ^ 64 ->
      step (if add then Add 64 else Subtract 64) (c :: x :: s) m = Next (Value 64 (r mod 2 ^ 64) :: s, m)).
  { intros c x y s Yc Yx E. unfold r. destruct add; cbn [LowerModel.step binary]; change 64 with (width U64);
      rewrite (fetch_yields _ _ _ Yx), (fetch_yields _ _ _ Yc); cbn [rbind]; do 4 f_equal; rewrite wrapu_width; cbn [width].
    - rewrite E. symmetry. apply Zplus_mod.
    - rewrite E. symmetry. apply Zminus_mod. }
  assert (OPS : forall c x y s, add = true -> yields c U64 y -> yields x U64 a -> y mod 2 ^ 64 = (v * size) mod 2 ^ 64 ->
      step (if add then Add 64 else Subtract 64) (x :: c :: s) m = Next (Value 64 (r mod 2 ^ 64) :: s, m)).
  { intros c x y s -> Yc Yx E. unfold r. cbn [LowerModel.step binary]; change 64 with (width U64);
      rewrite (fetch_yields _ _ _ Yx), (fetch_yields _ _ _ Yc); cbn [rbind]; do 4 f_equal; rewrite wrapu_width; cbn [width].
    rewrite E, Z.add_comm. symmetry. apply Zplus_mod. }
  assert (FIN : forall k, (forall s, exec k s m = Next (Value 64 (r mod 2 ^ 64) :: s, m)) -> plowered (mkpointer k None) r false).
  { intros k X. split; [|cbn; tauto]. exists (Value 64 (r mod 2 ^ 64)). split; [exact X|]. apply (value_yields U64). reflexivity. }
  unfold handle_pointer_arithmetic. destruct (literal e) as [l|] eqn:LE.
  - destruct (address q) as [z|] eqn:AQ.
    + exfalso. assert (kp <> false) by (intro; assert (Some z = None) by tauto; discriminate).
      assert (ke <> false) by (intro; assert (Some l = None) by tauto; discriminate). destruct kp, ke; cbn in *; congruence.
    + apply FIN. intro s. destruct Ge as (_ & _ & Ge). rewrite LE in Ge. destruct Ge as [Lt Lv].
      set (sl := scaled_literal size l).
      assert (YS : yields (Immediate (bits (lty sl)) (integer_literal_as_u64 sl)) U64 (v * size)).
      { apply literal_operand; [reflexivity|]. rewrite <- Lv. apply scaled_value. }
      assert (XI : forall s, exec [Integer_literal sl] s m = Next (Immediate (bits (lty sl)) (integer_literal_as_u64 sl) :: s, m)) by reflexivity.
      destruct swapped; rewrite <- !app_assoc.
      * rewrite (exec_app_next _ _ _ _ (XI s)), (exec_app_next _ _ _ _ (Xp _)), exec_one. eapply OPS; eauto.
      * rewrite (exec_app_next _ _ _ _ (Xp s)), (exec_app_next _ _ _ _ (XI _)), exec_one. eapply OP; eauto.
  - pose proof Ge as Ge'. destruct Ge' as (_ & _ & Ge'). rewrite LE in Ge'. destruct Ge' as (ce & Xe & Re & Ye).
    destruct (scale_ok size e t v ce Ge LE Xe Re Ye) as (cs & Xs & Ys).
    assert (EM : emit e = code e) by (unfold emit; rewrite LE; reflexivity). rewrite EM.
    apply FIN. intro s. 
    assert (XW : forall x y s, exec [Swap_lhs_rhs] (y :: x :: s) m = Next (x :: y :: s, m)) by reflexivity.
    destruct swapped; rewrite <- ?app_assoc.
    + rewrite (exec_app_next _ _ _ _ (Xe s)), (exec_app_next _ _ _ _ (Xp _)), (exec_app_next _ _ _ _ (XW _ _ _)),
        (exec_app_next _ _ _ _ (Xs _)), exec_one. eapply OP; eauto.
    + rewrite (exec_app_next _ _ _ _ (Xp s)), (exec_app_next _ _ _ _ (Xe _)),
        (exec_app_next _ _ _ _ (Xs _)), exec_one. eapply OP; eauto.
Qed.

Lemma subscript_ok : forall size q a e t v, 0 <= size < 2 ^ 31 -> pgood q a -> good e t v ->
  plowered (push_nodes_for_subscript size q e) (a + v * size) false.
Proof.
  intros size q a e t v SZ G Ge. destruct (pgood_emit q a G) as (cp & Xp & Yp).
  pose proof (push_ok false S64 e t v Ge) as (_ & ce & ce' & Xe & Ce & _ & Ye & _).
  unfold push_nodes_for_subscript. destruct (push_cast_expr false S64 e) as [e' k]. cbn [fst snd] in *.
  split; [|cbn; tauto]. exists (Value 64 ((a + v * size) mod 2 ^ 64)). split; [|apply (value_yields U64); reflexivity].
  intro s. cbn [pcode]. rewrite (exec_app_next _ _ _ _ (Xp s)), (exec_app_next _ _ _ _ (Xe _)), (exec_app_next _ _ _ _ (Ce eq_refl _)), exec_one.
  cbn [LowerModel.step]. rewrite wraps_id by lia. rewrite Z.eqb_refl. cbn [binary].
  pose proof (fetch_yields _ _ _ Yp) as Fp. pose proof (fetch_yields _ _ _ Ye) as Fe. cbn [width] in Fp, Fe. rewrite Fp, Fe. cbn [rbind].
  do 4 f_equal. cbn [width]. unfold wrapu.
  rewrite Zplus_mod, Z.mod_mod by lia. rewrite (Zmult_mod (wraps 64 _)), wraps_mod_pow, Z.mod_mod by lia.
  rewrite (convert_mod S64) by discriminate. cbn [width]. rewrite <- Zmult_mod, <- Zplus_mod. reflexivity.
Qed.

Theorem lower_pointer_ok : forall env size p a, holds ty env m -> 0 <= size < 2 ^ 31 -> pointers_ok ty p -> no_constant_step p ->
  peval size ty env p = Some a ->
  exists q, lower_pointer size ty p = Done q /\ plowered q a (pconstant p).
Proof.
  intros env size p a H SZ. revert a.
  assert (PM : forall q b a const, plowered q b const -> a = b mod 2 ^ 64 -> plowered q a const).
  { intros q b a const [G L] ->. split; [|exact L]. unfold pgood in *. destruct (address q); [rewrite Z.mod_mod by lia; exact G|].
    destruct G as (c & X & Y). exists c. split; [exact X|]. apply (yields_cong c U64 b); [|exact Y]. cbn [width]. symmetry. apply Z.mod_mod. lia. }
  induction p as [x|z|p IH e|e p IH|p IH e|p IH e]; intros a PO NC E; cbn [peval lower_pointer pointers_ok no_constant_step pconstant] in *.
  - injection E as <-. eexists. split; [reflexivity|]. split; [|cbn; tauto]. exists (Location x). split; [reflexivity|].
    destruct (H x) as [_ M]. split; cbn [operand_bits contents]; [change (vb x) with (bits (ty x)); rewrite PO; reflexivity|].
    rewrite M, PO. cbn [width]. symmetry. apply Z.mod_mod. lia.
  - injection E as <-. eexists. split; [reflexivity|]. split; [|cbn; split; discriminate].
    unfold pgood. cbn [address]. unfold wrapu. reflexivity.
  - destruct (peval size ty env p) as [ap|]; [|discriminate]. cbn [bind] in E.
    destruct (veval ty env e) as [[t v]|] eqn:V; [|discriminate]. cbn [bind snd] in E. injection E as <-.
    destruct PO as (PO & LO & NCC). destruct NC as [NC NK].
    destruct (IH ap PO NC eq_refl) as (q & -> & Gq). destruct (lower_ok env e t v H LO NCC V) as (qe & -> & Ge). cbn [obind].
    eexists. split; [reflexivity|]. eapply PM; [|reflexivity].
    exact (offset_ok _ true false size q ap qe t v _ _ Gq Ge NK ltac:(discriminate) eq_refl).
  - destruct (peval size ty env p) as [ap|]; [|discriminate]. cbn [bind] in E.
    destruct (veval ty env e) as [[t v]|] eqn:V; [|discriminate]. cbn [bind snd] in E. injection E as <-.
    destruct PO as (PO & LO & NCC). destruct NC as [NC NK].
    destruct (IH ap PO NC eq_refl) as (q & -> & Gq). destruct (lower_ok env e t v H LO NCC V) as (qe & -> & Ge). cbn [obind].
    eexists. split; [reflexivity|]. eapply PM; [|reflexivity].
    exact (offset_ok _ true true size q ap qe t v _ _ Gq Ge NK ltac:(reflexivity) eq_refl).
  - destruct (peval size ty env p) as [ap|]; [|discriminate]. cbn [bind] in E.
    destruct (veval ty env e) as [[t v]|] eqn:V; [|discriminate]. cbn [bind snd] in E. injection E as <-.
    destruct PO as (PO & LO & NCC). destruct NC as [NC NK].
    destruct (IH ap PO NC eq_refl) as (q & -> & Gq). destruct (lower_ok env e t v H LO NCC V) as (qe & -> & Ge). cbn [obind].
    eexists. split; [reflexivity|]. eapply PM; [|reflexivity].
    exact (offset_ok _ false false size q ap qe t v _ _ Gq Ge NK ltac:(discriminate) eq_refl).
  - destruct (peval size ty env p) as [ap|]; [|discriminate]. cbn [bind] in E.
    destruct (veval ty env e) as [[t v]|] eqn:V; [|discriminate]. cbn [bind snd] in E. injection E as <-.
    destruct PO as (PO & LO & NCC).
    destruct (IH ap PO NC eq_refl) as (q & -> & Gq). destruct (lower_ok env e t v H LO NCC V) as (qe & -> & Ge). cbn [obind].
    eexists. split; [reflexivity|]. eapply PM; [|reflexivity]. eapply subscript_ok; [exact SZ|apply Gq|apply Ge].
Qed.

(** [p += e], [p -= e]. *)
Lemma pointer_assignment_ok : forall env size (add : bool) x e t v const, holds ty env m -> ty x = U64 -> lowered e t v const ->
  assigns (lower_pointer_assignment size add x e) env x (convert U64 (if add then env x + v * size else env x - v * size)).
Proof.
  intros env size add x e t v const H TX [Ge _]. unfold lower_pointer_assignment, handle_pointer_arithmetic. cbn [address].
  set (op := if add then Add_assignment 64 else Subtract_assignment 64).
  set (r := convert U64 (if add then env x + v * size else env x - v * size)).
  assert (FX : fetch vb m 64 (Location x) = Next (env x mod 2 ^ 64)).
  { pose proof (fetch_variable env x H) as F. rewrite TX in F. exact F. }
  assert (OP : forall c s y, yields c U64 y -> y mod 2 ^ 64 = (v * size) mod 2 ^ 64 ->
     step op (c :: Location x :: s) m = Next (Location x :: s, update m x (r mod 2 ^ 64))).
  { intros c s y Y E. pose proof (fetch_yields _ _ _ Y) as Fc. cbn [width] in Fc.
    unfold op, r. rewrite (convert_mod U64) by discriminate. cbn [width].
    destruct add; cbn [LowerModel.step assignment]; rewrite FX, Fc; cbn [rbind]; unfold wrapu; rewrite E, <- ?Zplus_mod, <- ?Zminus_mod; reflexivity. }
  assert (FIN : forall k, (forall s, exec k s m = Next (Location x :: s, update m x (r mod 2 ^ 64))) -> assigns k env x r).
  { intros k X. exists (Location x), (update m x (r mod 2 ^ 64)). split; [exact X|]. rewrite TX. split.
    - unfold fetch. cbn [operand_bits contents]. change (vb x) with (bits (ty x)). rewrite TX. cbn [bits width]. rewrite Z.eqb_refl.
      unfold update. rewrite Nat.eqb_refl. reflexivity.
    - pose proof (holds_update env x r H) as HU. rewrite TX in HU. apply HU. apply convert_object. }
  destruct (literal e) as [l|] eqn:LE; cbn [pcode]; apply FIN; intro s.
  - destruct Ge as (_ & _ & Ge). rewrite LE in Ge. destruct Ge as [Lt Lv].
    cbn [pemit address pcode app LowerModel.exec]. cbn [LowerModel.step rbind fst snd].
    set (sl := scaled_literal size l).
    assert (YS : yields (Immediate (bits (lty sl)) (integer_literal_as_u64 sl)) U64 (v * size)).
    { apply literal_operand; [reflexivity|]. rewrite <- Lv. apply scaled_value. }
    fold (LowerModel.step vb). rewrite (OP _ _ _ YS eq_refl). reflexivity.
  - pose proof Ge as Ge'. destruct Ge' as (_ & _ & Ge'). rewrite LE in Ge'. destruct Ge' as (ce & Xe & Re & Ye).
    destruct (scale_ok size e t v ce Ge LE Xe Re Ye) as (cs & Xs & Ys).
    assert (EM : emit e = code e) by (unfold emit; rewrite LE; reflexivity). rewrite EM. rewrite <- app_assoc.
    assert (XI : forall s, exec (pemit {| pcode := [Identifier x]; address := None |}) s m = Next (Location x :: s, m)) by reflexivity.
    rewrite (exec_app_next _ _ _ _ (XI s)), (exec_app_next _ _ _ _ (Xe _)), (exec_app_next _ _ _ _ (Xs _)), exec_one.
    apply (OP _ _ _ Ys eq_refl).
Qed.

Lemma pointer_step_ok : forall env size (post increment : bool) x, holds ty env m -> ty x = U64 -> 0 <= size < 2 ^ 31 ->
  exists r m',
    (forall s, exec (lower_pointer_step size post increment x) s m = Next (r :: s, m')) /\
    let v := convert U64 (if increment then env x + size else env x - size) in
    fetch vb m' 64 r = Next ((if post then env x else v) mod 2 ^ 64) /\
    holds ty (assigned env x v) m'.
Proof.
  intros env size post increment x H TX SZ. cbv zeta. set (v := convert U64 (if increment then env x + size else env x - size)).
  exists (Value 64 ((if post then env x else v) mod 2 ^ 64)), (update m x (v mod 2 ^ 64)).
  assert (FX : fetch vb m 64 (Location x) = Next (env x mod 2 ^ 64)).
  { pose proof (fetch_variable env x H) as F. rewrite TX in F. exact F. }
  assert (PS : pointer_step size = Next size).
  { unfold pointer_step. assert (E : (0 <=? size) && (size <=? 4294967295) = true) by lia. rewrite E. f_equal.
    destruct (Z.gtb_spec size 127); apply wraps_id; lia. }
  split; [|split].
  - intro s. unfold lower_pointer_step.
    change (exec [Identifier x; if increment then Increment_pointer post size else Decrement_pointer post size] s m)
      with (exec [if increment then Increment_pointer post size else Decrement_pointer post size] (Location x :: s) m).
    rewrite exec_one. unfold v. 
    assert (VM : convert U64 (if increment then env x + size else env x - size) mod 2 ^ 64 = (if increment then env x + size else env x - size) mod 2 ^ 64)
      by (apply (convert_mod U64); discriminate).
    destruct increment; cbn [LowerModel.step]; rewrite PS; cbn [rbind step_variable]; rewrite FX; cbn [rbind]; unfold wrapu;
      rewrite ?Z.add_mod_idemp_l, ?Zminus_mod_idemp_l, <- VM by lia; destruct post; reflexivity.
  - unfold fetch. cbn [operand_bits contents]. reflexivity.
  - pose proof (holds_update env x v H) as HU. rewrite TX in HU. apply HU. apply convert_object.
Qed.

(** [p - q]. *)
Lemma difference_ok : forall size p q a b n, 0 < size < 2 ^ 63 -> pgood p a -> pgood q b ->
  0 <= b -> b <= a < 2 ^ 64 -> a = b + n * size ->
  exists c, (forall s, exec (lower_pointer_difference size p q) s m = Next (c :: s, m)) /\ yields c S64 n.
Proof.
  intros size p q a b n SZ Gp Gq B AB E. destruct (pgood_emit p a Gp) as (cp & Xp & Yp). destruct (pgood_emit q b Gq) as (cq & Xq & Yq).
  unfold lower_pointer_difference.
  assert (N : 0 <= n /\ n * size < 2 ^ 64) by nia.
  assert (SUB : forall s, exec [Subtract 64] (cq :: cp :: s) m = Next (Value 64 (n * size) :: s, m)).
  { intro s. rewrite exec_one. cbn [LowerModel.step binary]. change 64 with (width U64). rewrite (fetch_yields _ _ _ Yp), (fetch_yields _ _ _ Yq).
    cbn [rbind]. do 4 f_equal. cbn [width]. unfold wrapu. rewrite <- Zminus_mod. replace (a - b) with (n * size) by lia. apply Z.mod_small. lia. }
  destruct (Z.eqb_spec size 1) as [->|N1].
  - exists (Value 64 n). split; [|split; [reflexivity|cbn [contents width]; symmetry; apply Z.mod_small; lia]].
    intro s. rewrite (exec_app_next _ _ _ _ (Xp s)), (exec_app_next _ _ _ _ (Xq _)), (exec_app_next _ _ _ _ (SUB _)), Z.mul_1_r. reflexivity.
  - exists (Value 64 n). split; [|split; [reflexivity|cbn [contents width]; symmetry; apply Z.mod_small; nia]].
    intro s. rewrite (exec_app_next _ _ _ _ (Xp s)), (exec_app_next _ _ _ _ (Xq _)), (exec_app_next _ _ _ _ (SUB _)).
    set (l := mklit S64 size).
    assert (YL : yields (Immediate (bits (lty l)) (integer_literal_as_u64 l)) U64 size).
    { apply literal_operand; [reflexivity|]. unfold value. cbn [lty payload l]. rewrite value_wrap. apply (wrap_t_cong S64). }
    cbn [app LowerModel.exec]. cbn [LowerModel.step rbind fst snd]. fold l. cbn [binary]. change (bits U64) with (width U64).
    rewrite (fetch_yields _ _ _ YL). unfold fetch. cbn [operand_bits width]. rewrite Z.eqb_refl. cbn [rbind contents fst snd].
    unfold divide, number. cbn [type_is_signed bits width]. change (bits U64) with 64. rewrite (Z.mod_small size (2 ^ 64)), (wrapu_id 64 size), (wrapu_id 64 (n * size)) by lia.
    destruct (Z.eqb_spec size 0); [lia|]. cbn [andb rbind fst snd]. 
    rewrite Z.quot_mul by lia. rewrite wrapu_id by nia. reflexivity.
Qed.
End Proofs.
