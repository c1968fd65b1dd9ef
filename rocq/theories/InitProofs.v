(** Proofs about initialisers of objects with static storage. *)
From Coq Require Import List ZArith Lia Bool.
From Verif Require Import Base InitModel InitSpec.
Import ListNotations.
Open Scope Z_scope.

(** ** Bytes and bits *)
Lemma copy_length : forall a l d, 0 <= a -> a + Z.of_nat (length l) <= Z.of_nat (length d) -> length (copy a l d) = length d.
Proof. intros a l d P Q. unfold copy. rewrite !app_length, firstn_length, skipn_length. lia. Qed.

Lemma nth_firstn_lt : forall (l : list Z) n k, (k < n)%nat -> nth k (firstn n l) 0 = nth k l 0.
Proof. induction l as [|x l IH]; intros [|n] [|k] H; cbn; auto; try lia. apply IH. lia. Qed.
Lemma nth_skipn_plus : forall (l : list Z) n k, nth k (skipn n l) 0 = nth (n + k) l 0.
Proof. induction l as [|x l IH]; intros [|n] k; cbn; auto. destruct k; auto. Qed.

Lemma copy_nth : forall a l d k, 0 <= a -> a + Z.of_nat (length l) <= Z.of_nat (length d) ->
  nth k (copy a l d) 0 = if (a <=? Z.of_nat k) && (Z.of_nat k <? a + Z.of_nat (length l)) then nth (Z.to_nat (Z.of_nat k - a)) l 0 else nth k d 0.
Proof.
  intros a l d k P Q. unfold copy. assert (F : length (firstn (Z.to_nat a) d) = Z.to_nat a) by (rewrite firstn_length; lia).
  destruct (a <=? Z.of_nat k) eqn:A; [apply Z.leb_le in A|apply Z.leb_gt in A]; cbn [andb].
  - rewrite app_nth2 by lia. rewrite F. destruct (Z.of_nat k <? a + Z.of_nat (length l)) eqn:B; [apply Z.ltb_lt in B|apply Z.ltb_ge in B].
    + rewrite app_nth1 by lia. f_equal. lia.
    + rewrite app_nth2 by lia. rewrite nth_skipn_plus. f_equal. lia.
  - rewrite app_nth1 by lia. apply nth_firstn_lt. lia.
Qed.

Lemma bit_copy : forall a l d b, 0 <= a -> a + Z.of_nat (length l) <= Z.of_nat (length d) -> 0 <= b ->
  bit_of (copy a l d) b = assign_bytes a l (bit_of d) b.
Proof.
  intros a l d b P Q B. unfold bit_of at 1, assign_bytes. rewrite copy_nth by assumption.
  pose proof (Z.div_mod b 8 ltac:(lia)). pose proof (Z.mod_pos_bound b 8 ltac:(lia)).
  assert (0 <= b / 8) by (apply Z.div_pos; lia). rewrite Z2Nat.id by lia.
  replace ((8 * a <=? b) && (b <? 8 * (a + Z.of_nat (length l)))) with ((a <=? b / 8) && (b / 8 <? a + Z.of_nat (length l))).
  - destruct ((a <=? b / 8) && (b / 8 <? a + Z.of_nat (length l))); reflexivity.
  - apply eq_true_iff_eq. rewrite !andb_true_iff, !Z.leb_le, !Z.ltb_lt. lia.
Qed.

Lemma little_endian_length : forall n v, length (little_endian n v) = n.
Proof. induction n; intro v; cbn; auto. Qed.
Lemma little_endian_bytes : forall n v, Forall is_byte (little_endian n v).
Proof. induction n; intro v; cbn; constructor; auto. apply Z.mod_pos_bound. lia. Qed.
Lemma little_endian_bit : forall n v k j, (k < n)%nat -> 0 <= j < 8 -> Z.testbit (nth k (little_endian n v) 0) j = Z.testbit v (8 * Z.of_nat k + j).
Proof.
  induction n as [|n IH]; intros v k j K J; [lia|]. destruct k as [|k].
  - cbn [little_endian nth]. change 256 with (2 ^ 8). rewrite Z.mod_pow2_bits_low by lia. f_equal.
  - cbn [little_endian nth]. rewrite IH by lia. change 256 with (2 ^ 8). rewrite Z.div_pow2_bits by lia. f_equal. lia.
Qed.
Lemma assign_little_endian : forall a n v m b, 0 <= n -> 0 <= b -> assign_bytes a (little_endian (Z.to_nat n) v) m b = assign (8 * a) (8 * n) v m b.
Proof.
  intros a n v m b N B. unfold assign_bytes, assign. rewrite little_endian_length, Z2Nat.id by lia.
  replace (8 * (a + n)) with (8 * a + 8 * n) by lia.
  destruct (8 * a <=? b) eqn:A; [apply Z.leb_le in A|reflexivity]. destruct (b <? 8 * a + 8 * n) eqn:C; [apply Z.ltb_lt in C|reflexivity]. cbn [andb].
  pose proof (Z.div_mod b 8 ltac:(lia)). pose proof (Z.mod_pos_bound b 8 ltac:(lia)).
  rewrite little_endian_bit by lia. f_equal. lia.
Qed.

Lemma number_bit : forall l j, Forall is_byte l -> 0 <= j -> Z.testbit (number l) j = bit_of l j.
Proof.
  unfold bit_of. induction l as [|x l IH]; intros j F J; cbn [number].
  - rewrite Z.bits_0. destruct (Z.to_nat (j / 8)); cbn [nth]; rewrite Z.bits_0; reflexivity.
  - inversion F as [|y r X R]; subst. unfold is_byte in X.
    pose proof (Z.div_mod j 8 ltac:(lia)). pose proof (Z.mod_pos_bound j 8 ltac:(lia)).
    destruct (Z_lt_le_dec j 8) as [L|G].
    + rewrite Z.div_small, Z.mod_small by lia. cbn [Z.to_nat nth].
      rewrite <- (Z.mod_pow2_bits_low (x + 256 * number l) 8) by lia. rewrite <- (Z.mod_pow2_bits_low x 8) by lia.
      f_equal. change (2 ^ 8) with 256. rewrite Z.mul_comm, Z.mod_add by lia. reflexivity.
    + replace j with (j - 8 + 8) at 1 by lia. rewrite <- Z.div_pow2_bits by lia. change (2 ^ 8) with 256.
      rewrite Z.mul_comm, Z.div_add, Z.div_small, Z.add_0_l by lia. rewrite IH by (auto; lia).
      replace (j / 8) with ((j - 8) / 8 + 1).
      2:{ replace j with (j - 8 + 1 * 8) at 2 by lia. rewrite Z.div_add by lia. reflexivity. }
      replace (j mod 8) with ((j - 8) mod 8).
      2:{ replace j with (j - 8 + 1 * 8) at 2 by lia. rewrite Z.mod_add by lia. reflexivity. }
      assert (0 <= (j - 8) / 8) by (apply Z.div_pos; lia). rewrite Z2Nat.inj_add, Nat.add_comm by lia. reflexivity.
Qed.

Lemma Forall_skipn : forall (P : Z -> Prop) n l, Forall P l -> Forall P (skipn n l).
Proof. intros P n. induction n; intros l F; [exact F|]. destruct l; [constructor|]. inversion F; subst. cbn. auto. Qed.
Lemma Forall_firstn : forall (P : Z -> Prop) n l, Forall P l -> Forall P (firstn n l).
Proof. intros P n. induction n; intros l F; [constructor|]. destruct l; [constructor|]. inversion F; subst. cbn. constructor; auto. Qed.
Lemma copy_bytes : forall a l d, Forall is_byte l -> Forall is_byte d -> Forall is_byte (copy a l d).
Proof. intros a l d L D. unfold copy. apply Forall_app. split; [apply Forall_firstn; auto|]. apply Forall_app. split; [auto|apply Forall_skipn; auto]. Qed.

Lemma read_bit : forall a n s j, Forall is_byte (data s) -> 0 <= a -> 0 <= j < 8 * n -> Z.testbit (read a n s) j = bit_of (data s) (8 * a + j).
Proof.
  intros a n s j F A J. unfold read. rewrite number_bit by (try lia; apply Forall_firstn, Forall_skipn; exact F). unfold bit_of.
  pose proof (Z.div_mod j 8 ltac:(lia)). pose proof (Z.mod_pos_bound j 8 ltac:(lia)). assert (0 <= j / 8) by (apply Z.div_pos; lia).
  rewrite nth_firstn_lt by lia. rewrite nth_skipn_plus.
  replace ((8 * a + j) / 8) with (a + j / 8). 2:{ rewrite Z.add_comm, Z.mul_comm, <- Z.div_add by lia. f_equal. lia. }
  replace ((8 * a + j) mod 8) with (j mod 8). 2:{ replace (8 * a + j) with (j + a * 8) by lia. rewrite Z.mod_add by lia. reflexivity. }
  rewrite Z2Nat.inj_add by lia. reflexivity.
Qed.

Lemma wrapu_bit64 : forall v j, 0 <= j < 64 -> Z.testbit (wrapu 64 v) j = Z.testbit v j.
Proof. intros v j J. unfold wrapu. change (Z.of_nat 64) with 64 || idtac. apply Z.mod_pow2_bits_low. lia. Qed.

(** ** Patches *)
Section Patches.
Variable address : symbol -> Z.
Definition patch_value (t : symbol) (o : Z) : Z := match t with Object _ => address t + o | Literal _ => address t end.
Definition patched (ps : list (Z * symbol * Z)) (m : memory) : memory :=
  fold_left (fun m '(a, t, o) => assign (8 * a) 64 (patch_value t o) m) ps m.

Lemma assign_ext : forall f w v m m' b, m b = m' b -> assign f w v m b = assign f w v m' b.
Proof. intros. unfold assign. destruct (_ && _); auto. Qed.
Lemma patched_ext : forall ps m m' b, m b = m' b -> patched ps m b = patched ps m' b.
Proof. unfold patched. induction ps as [|[[a t] o] ps IH]; intros m m' b E; cbn [fold_left]; [exact E|]. apply IH. apply assign_ext. exact E. Qed.

Lemma link_bits : forall ps d b, 0 <= b -> (forall a t o, In (a, t, o) ps -> 0 <= a /\ a + 8 <= Z.of_nat (length d)) ->
  bit_of (link address {| data := d; patches := ps |}) b = patched ps (bit_of d) b.
Proof.
  unfold link, patched. cbn [data patches]. induction ps as [|[[a t] o] ps IH]; intros d b B P; cbn [fold_left]; [reflexivity|].
  destruct (P a t o (or_introl eq_refl)) as [A0 A1].
  assert (L : a + Z.of_nat (length (little_endian 8 (wrapu 64 (patch_value t o)))) <= Z.of_nat (length d)) by (rewrite little_endian_length; lia).
  rewrite IH; [|exact B|intros a' t' o' I; rewrite copy_length by assumption; apply (P a' t' o'); right; exact I].
  apply patched_ext. fold (patch_value t o). rewrite bit_copy by assumption.
  change 8%nat with (Z.to_nat 8). rewrite assign_little_endian by lia. unfold assign.
  change (8 * 8) with 64. destruct (8 * a <=? b) eqn:X; [apply Z.leb_le in X|reflexivity]. destruct (b <? 8 * a + 64) eqn:Y; [apply Z.ltb_lt in Y|reflexivity].
  cbn [andb]. apply wrapu_bit64. lia.
Qed.

Lemma patched_away : forall ps m b, (forall a t o, In (a, t, o) ps -> b < 8 * a \/ 8 * (a + 8) <= b) -> patched ps m b = m b.
Proof.
  unfold patched. induction ps as [|[[a t] o] ps IH]; intros m b P; cbn [fold_left]; [reflexivity|].
  rewrite IH by (intros a' t' o' I; apply (P a' t' o'); right; exact I). unfold assign.
  destruct (P a t o (or_introl eq_refl)); destruct (8 * a <=? b) eqn:X; destruct (b <? 8 * a + 64) eqn:Y; cbn [andb]; auto.
  - apply Z.leb_le in X. lia.
  - apply Z.ltb_lt in Y. lia.
Qed.

(** ** The invariant *)
Variable size : Z.
Record holds (seen : list (Z * Z * kind)) (s : state) (m : memory) : Prop := {
  h_length : Z.of_nat (length (data s)) = size;
  h_bytes : Forall is_byte (data s);
  h_bits : forall b, 0 <= b -> patched (patches s) (bit_of (data s)) b = m b;
  h_patch : forall a t o, In (a, t, o) (patches s) -> 0 <= a /\ a + 8 <= size /\ In (a, 8, Of_address) seen;
  h_zero : forall b, 0 <= b -> m b = true -> exists a n k, In (a, n, k) seen /\ 8 * a <= b < 8 * (a + n) }.

Lemma holds_ext : forall seen s m m', (forall b, 0 <= b -> m b = m' b) -> holds seen s m -> holds seen s m'.
Proof. intros seen s m m' E [A B C D F]. constructor; auto; intros b P; [rewrite <- E by exact P; auto|]. rewrite <- E by exact P. auto. Qed.

Definition after_write (a : Z) (l : list Z) (s : state) : state := {| data := copy a l (data s); patches := patches s |}.
Lemma write_done : forall seen s m a l, holds seen s m -> 0 <= a -> a + Z.of_nat (length l) <= size -> write a l s = Done (after_write a l s).
Proof.
  intros seen s m a l H A B. unfold write. rewrite (h_length _ _ _ H).
  rewrite (proj2 (Z.leb_le _ _) A), (proj2 (Z.leb_le _ _) B). reflexivity.
Qed.
Lemma write_holds : forall seen s m a l n k, holds seen s m -> 0 <= a -> a + Z.of_nat (length l) <= size -> Forall is_byte l ->
  Z.of_nat (length l) <= n -> (forall x, In x seen -> apart x (a, n, k)) -> k <> Of_address ->
  holds (seen ++ [(a, n, k)]) (after_write a l s) (assign_bytes a l m).
Proof.
  intros seen s m a l n k H A B L N P K. destruct H as [H1 H2 H3 H4 H5]. unfold after_write. constructor; cbn [data patches].
  - rewrite copy_length by lia. exact H1.
  - apply copy_bytes; assumption.
  - intros b Q.
    assert (D : forall x t o, In (x, t, o) (patches s) -> x + 8 <= a \/ a + n <= x).
    { intros x t o I. destruct (H4 x t o I) as (_ & _ & J). exact (P _ J (or_introl (conj eq_refl K))). }
    destruct ((8 * a <=? b) && (b <? 8 * (a + Z.of_nat (length l)))) eqn:R.
    + apply andb_prop in R as R'. destruct R' as [R1 R2]. apply Z.leb_le in R1. apply Z.ltb_lt in R2.
      rewrite patched_away. 2:{ intros x t o I. destruct (D x t o I); lia. }
      rewrite bit_copy by lia. unfold assign_bytes. rewrite R. reflexivity.
    + transitivity (m b). 2:{ unfold assign_bytes. rewrite R. reflexivity. }
      rewrite <- (H3 b Q). apply patched_ext. rewrite bit_copy by lia. unfold assign_bytes. rewrite R. reflexivity.
  - intros x t o I. destruct (H4 x t o I) as (X & Y & Z). split; [exact X|]. split; [exact Y|]. apply in_or_app. left. exact Z.
  - intros b Q T. unfold assign_bytes in T. destruct ((8 * a <=? b) && (b <? 8 * (a + Z.of_nat (length l)))) eqn:R.
    + apply andb_prop in R. destruct R as [R1 R2]. apply Z.leb_le in R1. apply Z.ltb_lt in R2. exists a, n, k.
      split; [apply in_or_app; right; left; reflexivity|lia].
    + destruct (H5 b Q T) as (x & y & z & I & J). exists x, y, z. split; [apply in_or_app; left; exact I|exact J].
Qed.

Lemma write_value_ok : forall seen s m a n v k, holds seen s m -> 0 <= a -> 0 <= n <= 8 -> a + n <= size ->
  (forall x, In x seen -> apart x (a, n, k)) -> k <> Of_address ->
  exists s1, write_value a n v s = Done s1 /\ holds (seen ++ [(a, n, k)]) s1 (assign (8 * a) (8 * n) v m).
Proof.
  intros seen s m a n v k H A N S P K. unfold write_value. rewrite (proj2 (Z.leb_le n 8)) by lia.
  assert (L : Z.of_nat (length (little_endian (Z.to_nat n) v)) = n) by (rewrite little_endian_length; lia).
  exists (after_write a (little_endian (Z.to_nat n) v) s). split; [apply (write_done seen s m); lia || assumption|].
  apply (holds_ext _ _ (assign_bytes a (little_endian (Z.to_nat n) v) m)); [intros b B; apply assign_little_endian; lia|].
  apply write_holds; try assumption; try lia. apply little_endian_bytes.
Qed.

Lemma patch_ok : forall seen s m a t o, holds seen s m -> 0 <= a -> a + 8 <= size ->
  exists s1, emit_patch a t o s = Done s1 /\ holds (seen ++ [(a, 8, Of_address)]) s1 (assign (8 * a) 64 (patch_value t o) m).
Proof.
  intros seen s m a t o H A S. unfold emit_patch. rewrite (h_length _ _ _ H), (proj2 (Z.leb_le _ _) S). eexists. split; [reflexivity|].
  destruct H as [H1 H2 H3 H4 H5]. constructor; cbn [data patches]; auto.
  - intros b B. unfold patched. rewrite fold_left_app. cbn [fold_left]. apply assign_ext. apply H3. exact B.
  - intros x y z I. apply in_app_or in I. destruct I as [I|[I|[]]].
    + destruct (H4 _ _ _ I) as (X & Y & Z). split; [exact X|]. split; [exact Y|]. apply in_or_app. left. exact Z.
    + injection I as <- <- <-. split; [exact A|]. split; [exact S|]. apply in_or_app. right. left. reflexivity.
  - intros b B T. unfold assign in T. destruct ((8 * a <=? b) && (b <? 8 * a + 64)) eqn:R.
    + apply andb_prop in R. destruct R as [R1 R2]. apply Z.leb_le in R1. apply Z.ltb_lt in R2. exists a, 8, Of_address.
      split; [apply in_or_app; right; left; reflexivity|lia].
    + destruct (H5 b B T) as (x & y & z & I & J). exists x, y, z. split; [apply in_or_app; left; exact I|exact J].
Qed.

(** ** Expressions *)
Fixpoint lnode (l : lvalue) : node := match l with Variable_ d => Decl d | Text s b n => String s b n | Unnamed d _ => Decl d | Field l _ => lnode l | Element l _ _ => lnode l end.
Lemma lnode_target : forall l, target (lnode l) = Done (Some (thing l)).
Proof. induction l; cbn [lnode thing target]; auto. Qed.
Lemma node_target : forall t, target (node_of t) = Done (Some t).
Proof. destruct t; reflexivity. Qed.

Definition of_refers (e : expr) : entry := {| what := match refers e with Some t => node_of t | None => Null end; offset := displacement e; is_address := true |}.
Definition entry_of (e : expr) : entry :=
  match e with
  | Number v => plain (Int v) | Floating v => plain (Float v) | Pointer_constant v => plain (Ptr v)
  | Address l => {| what := lnode l; offset := distance l; is_address := true |}
  | _ => of_refers e
  end.
Lemma operand_of : forall e, constant e -> operand (entry_of e) = Done (refers e, displacement e).
Proof.
  assert (R : forall e, operand (of_refers e) = Done (refers e, displacement e)).
  { intro e. unfold operand, of_refers. cbn [is_address what offset]. destruct (refers e) as [t|]; [rewrite node_target|]; reflexivity. }
  intros [v|v|v|l|a b|a b|l b|l b] C; try (apply R); try reflexivity; [destruct C|].
  unfold entry_of, operand. cbn [is_address what offset]. rewrite lnode_target. reflexivity.
Qed.
Lemma left_operand : forall l, operand {| what := lnode l; offset := distance l; is_address := true |} = Done (Some (thing l), distance l).
Proof. intro l. unfold operand. cbn [is_address what offset]. rewrite lnode_target. reflexivity. Qed.
Lemma symbol_eqb_refl : forall t, symbol_eqb t t = true.
Proof. intros [d|d]; apply Nat.eqb_refl. Qed.

Definition opens (k : list op) : Prop := match k with Initializer _ _ :: _ => False | _ => True end.
Lemma lvalue_opens : forall l k, opens (lvalue_ops l ++ k).
Proof. induction l; intro k; cbn [lvalue_ops]; try exact I; rewrite <- app_assoc; auto. Qed.
Lemma expr_opens : forall e k, opens (expr_ops e ++ k).
Proof. induction e; intro k; cbn [expr_ops]; try exact I; rewrite <- app_assoc; auto using lvalue_opens. Qed.

Lemma lvalue_runs : forall l k root st s fuel, opens k ->
  evaluate (length (lvalue_ops l) + fuel) root (lvalue_ops l ++ k) st s = evaluate fuel root k ({| what := lnode l; offset := distance l; is_address := false |} :: st) s.
Proof.
  induction l as [d|i b n|d body|l IH o|l IH i n]; intros k root st s fuel K; cbn [lvalue_ops].
  - reflexivity.
  - reflexivity.
  - cbn [length Nat.add app evaluate]. destruct k as [|[] k]; try reflexivity. destruct K.
  - rewrite app_length, <- app_assoc, <- Nat.add_assoc. rewrite IH by exact I. cbn [length Nat.add app evaluate what offset is_address lnode distance]. reflexivity.
  - rewrite app_length, <- app_assoc, <- Nat.add_assoc. rewrite IH by exact I. cbn [length Nat.add app evaluate what offset is_address lnode distance plain]. reflexivity.
Qed.

Lemma combine_plus : forall a b, operand a = operand a -> forall ra rb da db, operand a = Done (ra, da) -> operand b = Done (rb, db) -> ra = None \/ rb = None ->
  combine false a b = Done {| what := match (match ra with Some t => Some t | None => rb end) with Some t => node_of t | None => Null end; offset := da + db; is_address := true |}.
Proof. intros a b _ ra rb da db A B C. unfold combine. rewrite A, B. cbn [bind]. destruct ra, rb; try reflexivity. destruct C; discriminate. Qed.
Lemma combine_minus : forall a b ra rb da db, operand a = Done (ra, da) -> operand b = Done (rb, db) -> rb = None \/ rb = ra ->
  combine true a b = Done {| what := match (match rb with Some _ => None | None => ra end) with Some t => node_of t | None => Null end; offset := da - db; is_address := true |}.
Proof.
  intros a b ra rb da db A B C. unfold combine. rewrite A, B. cbn [bind]. destruct rb as [y|].
  - destruct C as [C|C]; [discriminate|]. rewrite <- C. rewrite symbol_eqb_refl. reflexivity.
  - destruct ra; reflexivity.
Qed.

Lemma expr_runs : forall e k root st s fuel, constant e \/ (exists v, e = Floating v) ->
  evaluate (length (expr_ops e) + fuel) root (expr_ops e ++ k) st s = evaluate fuel root k (entry_of e :: st) s.
Proof.
  induction e as [v|v|v|l|a IHa b IHb|a IHa b IHb|l b IHb|l b IHb]; intros k root st s fuel C; cbn [expr_ops]; try reflexivity.
  - rewrite app_length, <- app_assoc, <- Nat.add_assoc. rewrite lvalue_runs by exact I. reflexivity.
  - destruct C as [(Ca & Cb & R)|[v C]]; [|discriminate]. rewrite !app_length, <- !app_assoc, <- !Nat.add_assoc.
    rewrite IHa by (left; exact Ca). rewrite IHb by (left; exact Cb). cbn [length Nat.add app evaluate].
    rewrite (combine_plus _ _ eq_refl _ _ _ _ (operand_of a Ca) (operand_of b Cb) R). reflexivity.
  - destruct C as [(Ca & Cb & R)|[v C]]; [|discriminate]. rewrite !app_length, <- !app_assoc, <- !Nat.add_assoc.
    rewrite IHa by (left; exact Ca). rewrite IHb by (left; exact Cb). cbn [length Nat.add app evaluate].
    rewrite (combine_minus _ _ _ _ _ _ (operand_of a Ca) (operand_of b Cb) R). reflexivity.
  - destruct C as [(Cb & R)|[v C]]; [|discriminate]. rewrite !app_length, <- !app_assoc, <- !Nat.add_assoc.
    rewrite lvalue_runs by apply expr_opens. rewrite IHb by (left; exact Cb). cbn [length Nat.add app evaluate what offset].
    rewrite (combine_plus _ _ eq_refl (Some (thing l)) _ (distance l) _ (left_operand l) (operand_of b Cb) (or_intror R)).
    reflexivity.
  - destruct C as [(Cb & R)|[v C]]; [|discriminate]. rewrite !app_length, <- !app_assoc, <- !Nat.add_assoc.
    rewrite lvalue_runs by apply expr_opens. rewrite IHb by (left; exact Cb). cbn [length Nat.add app evaluate what offset].
    rewrite (combine_minus _ _ (Some (thing l)) _ (distance l) _ (left_operand l) (operand_of b Cb) R).
    reflexivity.
Qed.

Lemma value_is : forall e, constant e -> value address e = match refers e with Some t => address t | None => 0 end + displacement e.
Proof.
  induction e as [v|v|v|l|a IHa b IHb|a IHa b IHb|l b IHb|l b IHb]; cbn [constant value refers displacement]; intro C; try (unfold location; lia).
  - destruct C as (Ca & Cb & R). rewrite IHa, IHb by assumption. destruct (refers a), (refers b); try lia. destruct R; discriminate.
  - destruct C as (Ca & Cb & R). rewrite IHa, IHb by assumption. destruct (refers b) as [y|]; [|lia].
    destruct R as [R|R]; [discriminate|]. rewrite <- R. lia.
  - destruct C as (Cb & R). rewrite IHb by assumption. rewrite R. unfold location. lia.
  - destruct C as (Cb & R). rewrite IHb by assumption. unfold location. destruct (refers b) as [y|]; [|lia].
    destruct R as [R|R]; [discriminate|]. injection R as ->. lia.
Qed.

(** ** One initialised place *)
Lemma bits_place : forall seen s m a n i w v, holds seen s m -> 0 <= a -> a + n <= size -> 0 < w < 64 -> 0 <= i -> i + w <= 8 * n -> n <= 8 -> 0 <= v < 2 ^ w ->
  (forall x, In x seen -> apart x (a, n, Of_value)) ->
  exists s1, initialize a (Bits n i w) (plain (Int v)) s = Done s1 /\ holds (seen ++ [(a, n, Of_value)]) s1 (assign (8 * a + i) w v m).
Proof.
  intros seen s m a n i w v H A S W I IW N V P. unfold initialize. cbn [place_size plain is_address what].
  rewrite (h_length _ _ _ H), (proj2 (Z.leb_le _ _) S). cbn [negb].
  set (new := Z.lor (Z.land (wrapu 64 (Z.lnot (wrapu 64 ((2 ^ (w mod 64) - 1) * 2 ^ i)))) (read a n s)) (wrapu 64 (v * 2 ^ i))).
  destruct (write_value_ok seen s m a n new Of_value H A ltac:(lia) S P ltac:(discriminate)) as (s1 & E & F). exists s1. split; [exact E|].
  apply (holds_ext _ _ (assign (8 * a) (8 * n) new m)); [|exact F]. intros b B. unfold assign at 1.
  destruct ((8 * a <=? b) && (b <? 8 * a + 8 * n)) eqn:R.
  - apply andb_prop in R. destruct R as [R1 R2]. apply Z.leb_le in R1. apply Z.ltb_lt in R2.
    unfold new. rewrite Z.lor_spec, Z.land_spec, !wrapu_bit64 by lia. rewrite Z.lnot_spec by lia. rewrite wrapu_bit64 by lia.
    rewrite (Z.mod_small w 64) by lia. rewrite <- !Z.shiftl_mul_pow2 by lia. rewrite !Z.shiftl_spec by lia.
    rewrite read_bit by (try lia; exact (h_bytes _ _ _ H)). replace (8 * a + (b - 8 * a)) with b by lia.
    assert (O : Z.testbit (2 ^ w - 1) (b - 8 * a - i) = (0 <=? b - 8 * a - i) && (b - 8 * a - i <? w)).
    { replace (2 ^ w - 1) with (Z.ones w) by (rewrite Z.ones_equiv; lia).
      destruct (0 <=? b - 8 * a - i) eqn:X; [apply Z.leb_le in X|apply Z.leb_gt in X].
      - rewrite Z.testbit_ones_nonneg by lia. reflexivity.
      - rewrite Z.testbit_neg_r by lia. reflexivity. }
    rewrite O. unfold assign. replace (b - (8 * a + i)) with (b - 8 * a - i) by lia.
    replace ((8 * a + i <=? b) && (b <? 8 * a + i + w)) with ((0 <=? b - 8 * a - i) && (b - 8 * a - i <? w)).
    2:{ apply eq_true_iff_eq. rewrite !andb_true_iff, !Z.leb_le, !Z.ltb_lt. lia. }
    destruct ((0 <=? b - 8 * a - i) && (b - 8 * a - i <? w)) eqn:X; cbn [negb andb orb]; [reflexivity|].
    replace (Z.testbit v (b - 8 * a - i)) with false.
    + rewrite orb_false_r. rewrite <- (h_bits _ _ _ H b B). symmetry. apply patched_away. intros x t o J.
      destruct (h_patch _ _ _ H x t o J) as (_ & _ & K). specialize (P _ K). clear - P R1 R2. cbn in P. assert (D : x + 8 <= a \/ a + n <= x) by (apply P; left; split; [reflexivity|discriminate]). clear P. clear - D R1 R2. lia.
    + clear O. symmetry. destruct (0 <=? b - 8 * a - i) eqn:Y; [apply Z.leb_le in Y|apply Z.leb_gt in Y; apply Z.testbit_neg_r; lia].
      cbn [andb] in X. apply Z.ltb_ge in X. destruct (Z.eq_dec v 0) as [->|NZ]; [apply Z.bits_0|].
      apply Z.bits_above_log2; [lia|]. apply Z.lt_le_trans with w; [|lia]. apply Z.log2_lt_pow2; lia.
  - unfold assign. replace ((8 * a + i <=? b) && (b <? 8 * a + i + w)) with false; [reflexivity|]. symmetry.
    apply andb_false_iff in R. apply andb_false_iff. destruct R as [R|R]; [left; apply Z.leb_gt in R; apply Z.leb_gt; lia|right; apply Z.ltb_ge in R; apply Z.ltb_ge; lia].
Qed.

Lemma assign_wrap : forall f w v m b, w <= 64 -> assign f w (wrapu 64 v) m b = assign f w v m b.
Proof.
  intros f w v m b W. unfold assign. destruct ((f <=? b) && (b <? f + w)) eqn:R; [|reflexivity].
  apply andb_prop in R. destruct R as [R1 R2]. apply Z.leb_le in R1. apply Z.ltb_lt in R2. apply wrapu_bit64. lia.
Qed.

Definition put_meaning (a : Z) (p : place) (v : Z) (m : memory) : memory :=
  match p with Bits _ index width => assign (8 * a + index) width v m | _ => assign (8 * a) (8 * place_size p) v m end.

Lemma put_ok : forall seen s m a p e, holds seen s m -> 0 <= a -> a + place_size p <= size -> suits p e ->
  (forall x, In x seen -> apart x (a, place_size p, kind_of e)) ->
  exists s1, initialize a p (entry_of e) s = Done s1 /\ holds (seen ++ [(a, place_size p, kind_of e)]) s1 (put_meaning a p (value address e) m).
Proof.
  intros seen s m a p e H A S U P.
  assert (G : forall n, p = Integer n /\ 0 <= n <= 8 \/ p = Pointer /\ n = 8 -> refers e = None -> constant e -> entry_of e = of_refers e ->
     exists s1, initialize a p (entry_of e) s = Done s1 /\ holds (seen ++ [(a, place_size p, kind_of e)]) s1 (put_meaning a p (value address e) m)).
  { intros n Q R C ->. unfold kind_of in P |- *. rewrite R in P |- *.
    assert (PS : 0 <= place_size p <= 8) by (destruct Q as [[-> Q]|[-> ->]]; cbn; lia).
    destruct (write_value_ok seen s m a (place_size p) (wrapu 64 (displacement e)) Of_value H A PS S P ltac:(discriminate)) as (s1 & E & F).
    exists s1. split.
    - unfold initialize, of_refers. rewrite (h_length _ _ _ H), (proj2 (Z.leb_le _ _) S). cbn [negb is_address what offset]. rewrite R. cbn [target bind]. exact E.
    - apply (holds_ext _ _ (assign (8 * a) (8 * place_size p) (wrapu 64 (displacement e)) m)); [|exact F]. intros b B.
      rewrite assign_wrap by lia. rewrite value_is by exact C. rewrite R. destruct Q as [[-> Q]|[-> ->]]; reflexivity. }
  assert (T : forall t, refers e = Some t -> constant e -> is_address (entry_of e) = true -> target (what (entry_of e)) = Done (Some t) -> offset (entry_of e) = displacement e ->
     (p = Pointer \/ p = Integer 8) /\ match t with Object _ => True | Literal _ => displacement e = 0 end ->
     exists s1, initialize a p (entry_of e) s = Done s1 /\ holds (seen ++ [(a, place_size p, kind_of e)]) s1 (put_meaning a p (value address e) m)).
  { intros t R C X Y Z [Q O]. unfold kind_of in P |- *. rewrite R in P |- *. assert (PS : place_size p = 8) by (destruct Q; subst; reflexivity).
    rewrite PS in S, P |- *. destruct (patch_ok seen s m a t (displacement e) H A S) as (s1 & E & F). exists s1. split.
    - unfold initialize. rewrite PS, (h_length _ _ _ H), (proj2 (Z.leb_le _ _) S). cbn [negb]. rewrite X, Y, Z. cbn [bind]. exact E.
    - replace (put_meaning a p (value address e) m) with (assign (8 * a) 64 (patch_value t (displacement e)) m); [exact F|].
      rewrite value_is by exact C. rewrite R. unfold patch_value. destruct t; [|rewrite O, Z.add_0_r]; destruct Q; subst; reflexivity. }
  destruct e as [v|v|v|l|x y|x y|l y|l y].
  - cbn [suits] in U. destruct p as [n|n| |n i w|x n|x|n]; try (destruct U; fail).
    + destruct (write_value_ok seen s m a n v Of_value H A U S P ltac:(discriminate)) as (s1 & E & F). exists s1. split; [|exact F].
      unfold initialize. rewrite (h_length _ _ _ H), (proj2 (Z.leb_le _ _) S). exact E.
    + destruct (write_value_ok seen s m a 8 v Of_value H A ltac:(lia) S P ltac:(discriminate)) as (s1 & E & F). exists s1. split; [|exact F].
      unfold initialize. rewrite (h_length _ _ _ H), (proj2 (Z.leb_le _ _) S). exact E.
    + destruct U as (U1 & U2 & U3 & U4 & U5). exact (bits_place seen s m a n i w v H A S U1 U2 U3 U4 U5 P).
  - cbn [suits] in U. destruct p as [n|n| |n i w|x n|x|n]; try (destruct U; fail).
    destruct (write_value_ok seen s m a n v Of_value H A U S P ltac:(discriminate)) as (s1 & E & F). exists s1. split; [|exact F].
    unfold initialize. rewrite (h_length _ _ _ H), (proj2 (Z.leb_le _ _) S). exact E.
  - cbn [suits constant refers] in U. destruct U as [_ U]. assert (PS : 0 <= place_size p <= 8) by (destruct p; cbn; try lia; destruct U).
    destruct (write_value_ok seen s m a (place_size p) v Of_value H A PS S P ltac:(discriminate)) as (s1 & E & F). exists s1. split.
    + unfold initialize. rewrite (h_length _ _ _ H), (proj2 (Z.leb_le _ _) S). exact E.
    + destruct p; try exact F. destruct U.
  - cbn [suits] in U. destruct U as [C U]. cbn [refers] in U.
    apply (T (thing l)); auto. cbn [entry_of what]. apply lnode_target.
  - cbn [suits] in U. destruct U as [C U]. destruct (refers (Plus x y)) as [t|] eqn:R.
    + apply (T t); auto. cbn [entry_of of_refers what]. rewrite R. apply node_target.
    + destruct p as [n|n| |n i w|z n|z|n]; try (destruct U; fail); [apply (G n)|apply (G 8)]; auto.
  - cbn [suits] in U. destruct U as [C U]. destruct (refers (Minus x y)) as [t|] eqn:R.
    + apply (T t); auto. cbn [entry_of of_refers what]. rewrite R. apply node_target.
    + destruct p as [n|n| |n i w|z n|z|n]; try (destruct U; fail); [apply (G n)|apply (G 8)]; auto.
  - cbn [suits] in U. destruct U as [C U]. destruct (refers (Plus_array l y)) as [t|] eqn:R.
    + apply (T t); auto. cbn [entry_of of_refers what]. rewrite R. apply node_target.
    + destruct p as [n|n| |n i w|z n|z|n]; try (destruct U; fail); [apply (G n)|apply (G 8)]; auto.
  - cbn [suits] in U. destruct U as [C U]. destruct (refers (Minus_array l y)) as [t|] eqn:R.
    + apply (T t); auto. cbn [entry_of of_refers what]. rewrite R. apply node_target.
    + destruct p as [n|n| |n i w|z n|z|n]; try (destruct U; fail); [apply (G n)|apply (G 8)]; auto.
Qed.

(** ** Strings *)
Lemma copy_copy : forall a l z d, 0 <= a -> a + Z.of_nat (length l) + Z.of_nat (length z) <= Z.of_nat (length d) ->
  copy (a + Z.of_nat (length l)) z (copy a l d) = copy a (l ++ z) d.
Proof.
  intros a l z d A B. apply (nth_ext _ _ 0 0).
  - rewrite !copy_length; rewrite ?app_length, ?copy_length; try lia.
  - intros k _. rewrite (copy_nth (a + Z.of_nat (length l))) by (rewrite ?copy_length; lia). rewrite !copy_nth by (rewrite ?app_length; lia).
    rewrite app_length, Nat2Z.inj_add.
    destruct (a <=? Z.of_nat k) eqn:X; [apply Z.leb_le in X|apply Z.leb_gt in X]; cbn [andb].
    + destruct (Z.of_nat k <? a + Z.of_nat (length l)) eqn:Y; [apply Z.ltb_lt in Y|apply Z.ltb_ge in Y].
      * rewrite (proj2 (Z.leb_gt _ _)) by lia. cbn [andb]. rewrite (proj2 (Z.ltb_lt _ _)) by lia. rewrite app_nth1 by lia. reflexivity.
      * rewrite (proj2 (Z.leb_le _ _)) by lia. cbn [andb]. rewrite Z.add_assoc.
        destruct (Z.of_nat k <? a + Z.of_nat (length l) + Z.of_nat (length z)) eqn:W; [|reflexivity]. rewrite app_nth2 by lia. f_equal. lia.
    + rewrite (proj2 (Z.leb_gt _ _)) by lia. reflexivity.
Qed.

Lemma nth_zeros : forall n k, nth k (repeat 0 n) 0 = 0.
Proof. induction n; intros [|k]; cbn; auto. Qed.
Lemma assign_padded : forall a l k n (m : memory) b, Z.of_nat (length l) + Z.of_nat k <= n -> 0 <= b ->
  (8 * a <= b < 8 * (a + n) -> m b = false) -> assign_bytes a (l ++ repeat 0 k) m b = assign_bytes a (padded l n) m b.
Proof.
  intros a l k n m b N B M. unfold assign_bytes, padded. rewrite !app_length, !repeat_length.
  destruct (8 * a <=? b) eqn:X; [apply Z.leb_le in X|reflexivity]. cbn [andb].
  pose proof (Z.div_mod b 8 ltac:(lia)). pose proof (Z.mod_pos_bound b 8 ltac:(lia)).
  assert (G : forall j, nth (Z.to_nat (b / 8 - a)) (l ++ repeat 0 j) 0 = nth (Z.to_nat (b / 8 - a)) l 0).
  { intro j. destruct (Nat.lt_ge_cases (Z.to_nat (b / 8 - a)) (length l)) as [C|C]; [apply app_nth1; exact C|].
    rewrite app_nth2, nth_zeros by exact C. symmetry. apply nth_overflow. exact C. }
  rewrite !G. replace (8 * (a + Z.of_nat (length l + (Z.to_nat n - length l)))) with (8 * (a + n)) by lia.
  destruct (b <? 8 * (a + Z.of_nat (length l + k))) eqn:Y; [apply Z.ltb_lt in Y|apply Z.ltb_ge in Y].
  - rewrite (proj2 (Z.ltb_lt _ _)) by lia. reflexivity.
  - destruct (b <? 8 * (a + n)) eqn:W; [apply Z.ltb_lt in W|reflexivity]. rewrite M by lia.
    rewrite nth_overflow by lia. rewrite Z.bits_0. reflexivity.
Qed.

Lemma string_ok : forall seen s m a p i l n, holds seen s m -> 0 <= a -> a + array_bytes p n <= size -> Z.of_nat (length l) <= array_bytes p n -> Forall is_byte l ->
  match p with Array e _ => 0 <= e | Flexible e => 0 <= e | _ => False end ->
  (forall x, In x seen -> apart x (a, array_bytes p n, Of_string)) ->
  exists s1, initialize a p (plain (String i l n)) s = Done s1 /\ holds (seen ++ [(a, array_bytes p n, Of_string)]) s1 (assign_bytes a (padded l (array_bytes p n)) m).
Proof.
  intros seen s m a p i l n H A S L F E P.
  assert (Z0 : forall b, 8 * a <= b < 8 * (a + array_bytes p n) -> m b = false).
  { intros b B. destruct (m b) eqn:M; [|reflexivity]. destruct (h_zero _ _ _ H b ltac:(lia) M) as (x & y & z & J & K).
    assert (D : x + y <= a \/ a + array_bytes p n <= x) by (apply (P _ J); right; reflexivity). lia. }
  assert (G : forall e N, array_bytes p n = N -> 0 <= e ->
    exists s1, bind (write a l s) (fun s1 => if a + Z.of_nat (length l) + e <=? N then write (a + Z.of_nat (length l)) (repeat 0 (Z.to_nat e)) s1 else Done s1) = Done s1
      /\ holds (seen ++ [(a, N, Of_string)]) s1 (assign_bytes a (padded l N) m)).
  { intros e N Q X. rewrite Q in *. rewrite (write_done seen s m) by (assumption || lia). cbn [bind].
    destruct (a + Z.of_nat (length l) + e <=? N) eqn:C; [apply Z.leb_le in C|].
    - exists (after_write a (l ++ repeat 0 (Z.to_nat e)) s). split.
      + unfold write, after_write. cbn [data patches]. pose proof (h_length _ _ _ H). rewrite copy_length, repeat_length by lia.
        rewrite (proj2 (Z.leb_le _ _)), (proj2 (Z.leb_le _ _)) by lia. cbn [andb]. rewrite copy_copy by (rewrite ?repeat_length; lia). reflexivity.
      + apply (holds_ext _ _ (assign_bytes a (l ++ repeat 0 (Z.to_nat e)) m)); [intros b B; apply assign_padded; [lia|exact B|apply Z0]|].
        apply write_holds; try assumption; rewrite ?app_length, ?repeat_length; try lia; [|discriminate].
        apply Forall_app. split; [exact F|]. apply Forall_forall. intros x Y. apply repeat_spec in Y. subst x. unfold is_byte. lia.
    - exists (after_write a l s). split; [reflexivity|].
      apply (holds_ext _ _ (assign_bytes a (l ++ repeat 0 0) m)); [intros b B; apply assign_padded; [cbn; lia|exact B|apply Z0]|].
      cbn [repeat]. rewrite app_nil_r. apply write_holds; try assumption; try lia. discriminate. }
  unfold initialize. rewrite (h_length _ _ _ H). cbn [plain is_address what].
  assert (X0 : (a + place_size p <=? size) = true) by (apply Z.leb_le; destruct p; try (destruct E; fail); cbn [place_size array_bytes] in *; lia).
  rewrite X0. cbn [negb].
  destruct p as [x|x| |x j w|e c|e|x]; try (destruct E; fail); cbn [array_bytes] in *.
  - rewrite (proj2 (Z.leb_le (a + Z.of_nat (length l)) size)), (proj2 (Z.leb_le (Z.of_nat (length l)) (e * c))) by lia. cbn [negb]. apply G; auto.
  - rewrite (proj2 (Z.leb_le (a + Z.of_nat (length l)) size)), (proj2 (Z.leb_le (Z.of_nat (length l)) n)) by lia. cbn [negb]. apply G; auto.
Qed.

(** ** Whole initialisers *)
Definition item_rec' (P : item -> Prop) (f1 : forall o p e, P (Put o p e)) (f2 : forall o p i l n, P (Put_string o p i l n)) (f3 : forall o p l, P (Put_file o p l))
  (f4 : forall o p d l, Forall P l -> P (Put_members o p d l)) : forall i, P i :=
  fix go i := match i with
  | Put o p e => f1 o p e | Put_string o p x l n => f2 o p x l n | Put_file o p l => f3 o p l
  | Put_members o p d l => f4 o p d l ((fix all l := match l return Forall P l with [] => Forall_nil P | i :: l => Forall_cons i (go i) (all l) end) l)
  end.

Definition runs (seen : list (Z * Z * kind)) (root : Z) (ops : list op) (new : list (Z * Z * kind)) (s : state) (m : memory) : Prop :=
  exists N c s1, holds (seen ++ new) s1 m /\ forall fuel rest, (N <= fuel)%nat -> evaluate (c + fuel) root (ops ++ rest) [] s = evaluate fuel root rest [] s1.

Lemma pairs_front : forall (A : Type) (R : A -> A -> Prop) l1 l2, ForallOrdPairs R (l1 ++ l2) -> ForallOrdPairs R l1.
Proof. intros A R. induction l1 as [|x l1 IH]; intros l2 H; [constructor|]. inversion H as [|y l F G]; subst. apply Forall_app in F. destruct F as [F _]. constructor; [exact F|]. apply (IH l2). exact G. Qed.
Lemma pairs_last : forall (A : Type) (R : A -> A -> Prop) l x, ForallOrdPairs R (l ++ [x]) -> forall y, In y l -> R y x.
Proof.
  intros A R. induction l as [|z l IH]; intros x H y I; [destruct I|]. inversion H as [|w l' F G]; subst. destruct I as [<-|I]; [|apply (IH x); auto].
  apply Forall_app in F. destruct F as [_ F]. inversion F; subst. assumption.
Qed.

Lemma list_runs : forall l root seen s m,
  Forall (fun i => forall root seen s m, holds seen s m -> proper size root i -> ForallOrdPairs apart (seen ++ sets root i) -> runs seen root (item_ops i) (sets root i) s (meaning address root i m)) l ->
  holds seen s m -> fold_right (fun j P => proper size root j /\ P) True l -> ForallOrdPairs apart (seen ++ flat_map (sets root) l) ->
  runs seen root (flat_map item_ops l) (flat_map (sets root) l) s (fold_left (fun m j => meaning address root j m) l m).
Proof.
  induction l as [|i l IH]; intros root seen s m F H P C; cbn [flat_map fold_left].
  - exists 0%nat, 0%nat, s. split; [rewrite app_nil_r; exact H|]. intros fuel rest _. reflexivity.
  - inversion F as [|x y Fi Fl]; subst. cbn [fold_right flat_map] in P, C. destruct P as [Pi Pl]. rewrite app_assoc in C.
    destruct (Fi root seen s m H Pi (pairs_front _ _ _ _ C)) as (N1 & c1 & s1 & H1 & E1).
    destruct (IH root _ s1 _ Fl H1 Pl C) as (N2 & c2 & s2 & H2 & E2).
    exists (N1 + N2)%nat, (c1 + c2)%nat, s2. split; [rewrite app_assoc; exact H2|].
    intros fuel rest L. rewrite <- app_assoc, <- Nat.add_assoc. rewrite E1 by lia. apply E2. lia.
Qed.

Lemma item_runs : forall i root seen s m, holds seen s m -> proper size root i -> ForallOrdPairs apart (seen ++ sets root i) ->
  runs seen root (item_ops i) (sets root i) s (meaning address root i m).
Proof.
  intro i. induction i as [o p e|o p x l n|o p l|o p d l IH] using item_rec'; intros root seen s m H P C.
  - cbn [proper sets] in P, C. destruct P as (P1 & P2 & P3).
    destruct (put_ok seen s m (root + o) p e H P1 P2 P3 (pairs_last _ _ _ _ C)) as (s1 & E & F).
    exists 0%nat, (length (expr_ops e) + 1)%nat, s1. cbn [sets]. split; [destruct p; exact F|].
    intros fuel rest _. cbn [item_ops]. rewrite <- app_assoc, <- Nat.add_assoc. rewrite expr_runs.
    + cbn [Nat.add app evaluate]. rewrite E. reflexivity.
    + destruct e as [v|v|v|y|y z|y z|y z|y z]; try (left; exact (proj1 P3)); [left; exact I|right; exists v; reflexivity].
  - cbn [proper sets] in P, C. destruct P as (P1 & P2 & P3 & P4 & P5).
    destruct (string_ok seen s m (root + o) p x l n H P1 P2 P3 P4 P5 (pairs_last _ _ _ _ C)) as (s1 & E & F).
    exists 0%nat, 2%nat, s1. cbn [sets]. split; [exact F|]. intros fuel rest _. cbn [item_ops Nat.add app evaluate]. rewrite E. reflexivity.
  - cbn [proper sets] in P, C. destruct P as (P1 & P2 & P3 & P4). exists 0%nat, 2%nat, (after_write (root + o) l s). cbn [sets meaning]. split.
    + apply write_holds; try assumption; try lia; [|discriminate]. apply (pairs_last _ _ _ _ C).
    + intros fuel rest _. cbn [item_ops Nat.add app evaluate]. unfold initialize. rewrite (h_length _ _ _ H), (proj2 (Z.leb_le _ _) P2). cbn [negb plain is_address what].
      rewrite (proj2 (Z.leb_le _ _) P3). rewrite (write_done seen s m) by assumption. reflexivity.
  - cbn [proper sets] in P, C. destruct P as (P1 & P2 & P3).
    destruct (list_runs l (root + o) seen s m IH H P3 C) as (N & c & s1 & F & E).
    exists (c + S N)%nat, 1%nat, s1. cbn [sets meaning]. split; [exact F|].
    intros fuel rest L. cbn [item_ops Nat.add app evaluate]. rewrite (h_length _ _ _ H), (proj2 (Z.leb_le _ _) P2). cbn [negb].
    replace fuel with (c + (fuel - c))%nat at 1 by lia. specialize (E (fuel - c)%nat [] ltac:(lia)). rewrite app_nil_r in E. rewrite E.
    destruct (fuel - c)%nat as [|f] eqn:Q; [lia|]. reflexivity.
Qed.

Lemma start_holds : 0 <= size -> holds [] {| data := repeat 0 (Z.to_nat size); patches := [] |} (fun _ => false).
Proof.
  intro S. constructor; cbn [data patches].
  - rewrite repeat_length. lia.
  - apply Forall_forall. intros x Y. apply repeat_spec in Y. subst x. unfold is_byte. lia.
  - intros b _. unfold bit_of. cbn [patched fold_left]. rewrite nth_zeros. apply Z.bits_0.
  - intros a t o [].
  - intros b _ T. discriminate.
Qed.

Theorem initializer_stores : forall l, 0 <= size -> Forall (proper size 0) l -> calm l ->
  exists N s, (forall fuel, (N <= fuel)%nat -> static_initializer fuel (flat_map item_ops l) size = Done s)
    /\ length (link address s) = Z.to_nat size /\ forall b, 0 <= b < 8 * size -> bit_of (link address s) b = object address l b.
Proof.
  intros l S0 P C.
  assert (F : fold_right (fun j P => proper size 0 j /\ P) True l) by (induction P; cbn [fold_right]; auto; split; auto; apply IHP; unfold calm in *; cbn [flat_map] in C; clear - C; induction (sets 0 x); [exact C|inversion C; auto]).
  destruct (list_runs l 0 [] _ _ ltac:(apply Forall_forall; intros i _; apply item_runs) (start_holds S0) F C) as (N & c & s1 & H & E).
  exists (c + S N)%nat, s1. split.
  - intros fuel L. unfold static_initializer. specialize (E (fuel - c)%nat [] ltac:(lia)). rewrite app_nil_r in E.
    replace fuel with (c + (fuel - c))%nat by lia. rewrite E. destruct (fuel - c)%nat as [|f] eqn:Q; [lia|]. reflexivity.
  - destruct s1 as [d ps]. pose proof (h_length _ _ _ H) as HL. cbn [data] in HL.
    assert (B : forall a t o, In (a, t, o) ps -> 0 <= a /\ a + 8 <= Z.of_nat (length d)).
    { intros a t o I. destruct (h_patch _ _ _ H a t o I) as (X & Y & _). cbn [data] in *. lia. }
    split.
    + replace (Z.to_nat size) with (length d) by lia. clear - B. unfold link. cbn [data patches]. revert d B.
      induction ps as [|[[a t] o] ps IH]; intros d B; cbn [fold_left]; [reflexivity|]. destruct (B a t o (or_introl eq_refl)) as [X Y].
      rewrite IH; [apply copy_length; rewrite ?little_endian_length; lia|].
      intros a' t' o' I. rewrite copy_length by (rewrite ?little_endian_length; lia). apply (B a' t' o'). right. exact I.
    + intros b Q. rewrite link_bits by (lia || exact B). exact (h_bits _ _ _ H b ltac:(lia)).
Qed.
End Patches.

(** ** No write leaves the object *)
Definition inside (size : Z) (r : result state) : Prop :=
  match r with
  | Done s => Z.of_nat (length (data s)) = size /\ forall a t o, In (a, t, o) (patches s) -> 0 <= a /\ a + 8 <= size
  | Outside => False
  | _ => True
  end.

Lemma write_inside : forall size s a l, inside size (Done s) -> 0 <= a -> a + Z.of_nat (length l) <= size -> inside size (write a l s).
Proof.
  intros size s a l [L P] A B. unfold write. rewrite L, (proj2 (Z.leb_le _ _) A), (proj2 (Z.leb_le _ _) B). cbn [andb inside data patches].
  rewrite copy_length by lia. auto.
Qed.
Lemma write_value_inside : forall size s a n v, inside size (Done s) -> 0 <= a -> a + n <= size -> a <= size -> inside size (write_value a n v s).
Proof.
  intros size s a n v H A B C. unfold write_value. destruct (n <=? 8); [|exact I]. apply write_inside; try assumption. rewrite little_endian_length. lia.
Qed.
Lemma patch_inside : forall size s a t o, inside size (Done s) -> 0 <= a -> inside size (emit_patch a t o s).
Proof.
  intros size s a t o [L P] A. unfold emit_patch. rewrite L. destruct (a + 8 <=? size) eqn:X; [apply Z.leb_le in X|exact I]. cbn [inside data patches].
  split; [exact L|]. intros b t' o' J. apply in_app_or in J. destruct J as [J|[J|[]]]; [exact (P _ _ _ J)|]. injection J as <- _ _. lia.
Qed.

Lemma initialize_inside : forall size s a p e, inside size (Done s) -> 0 <= a -> 0 <= place_size p -> match p with Flexible _ => False | _ => True end -> inside size (initialize a p e s).
Proof.
  intros size s a p e H A N F. pose proof (proj1 H) as L. unfold initialize. rewrite L. destruct (a + place_size p <=? size) eqn:X; [apply Z.leb_le in X|exact I]. cbn [negb].
  assert (V : forall v, inside size (write_value a (place_size p) v s)) by (intro v; apply write_value_inside; auto; lia).
  destruct (is_address e).
  - destruct (target (what e)) as [[t|]| | | |] eqn:T; cbn [bind]; try exact I; [apply patch_inside; assumption|apply V|]. destruct (what e); discriminate.
  - destruct (what e) as [v|v|i l n|v|d|l|]; try apply V; try exact I.
    + destruct p; try exact I; apply V.
    + destruct p as [x|x| |x j w|x c|x|x]; try exact I; [|destruct F].
      destruct (a + Z.of_nat (length l) <=? size) eqn:Y; [apply Z.leb_le in Y|exact I]. destruct (Z.of_nat (length l) <=? x * c); [|exact I]. cbn [negb].
      pose proof (write_inside size s a l H A Y) as W. destruct (write a l s) as [s1| | | |]; cbn [bind]; try exact W.
      destruct (a + Z.of_nat (length l) + x <=? x * c) eqn:Q; [apply Z.leb_le in Q|exact W]. cbn [place_size] in X.
      apply write_inside; [exact W|lia|]. rewrite repeat_length. lia.
    + destruct (a + Z.of_nat (length l) <=? size) eqn:Y; [apply Z.leb_le in Y|exact I]. apply write_inside; assumption.
Qed.

Lemma evaluate_inside : forall fuel size root ops st s, inside size (Done s) -> 0 <= root -> all_sane ops -> inside size (evaluate fuel root ops st s).
Proof.
  induction fuel as [|fuel IH]; intros size root ops st s H R S0; [exact I|]. destruct ops as [|o rest]; [exact H|]. destruct S0 as [So Sr]. fold (all_sane rest) in Sr.
  cbn [evaluate].
  destruct o as [v|v|i l n|v|d c|d body|l|off| | |n| | |off p| | ]; try (apply IH; assumption); try exact I.
  - destruct c; [apply IH; assumption|exact I].
  - destruct rest as [|[v|v|i l n|v|e c|e b|l|off| | |n| | |off p| | ] rest]; try (apply IH; assumption).
    destruct Sr as [[P1 P2] Sr]. fold (all_sane rest) in Sr. cbn [sane] in So. fold (all_sane body) in So.
    destruct (negb _); [exact I|]. pose proof (IH size (root + off) body [] s H ltac:(lia) So) as B.
    destruct (evaluate fuel (root + off) body [] s) as [s1| | | |]; cbn [bind]; try exact B. apply IH; assumption.
  - destruct st; [exact I|apply IH; assumption].
  - destruct st; [exact I|apply IH; assumption].
  - destruct st as [|x [|y st]]; try exact I. apply IH; assumption.
  - destruct st as [|x [|y st]]; try exact I. destruct (what x); try exact I. apply IH; assumption.
  - destruct st as [|x [|y st]]; try exact I. unfold combine, operand, target.
    destruct (is_address y), (what y), (is_address x), (what x); cbn [bind symbol_eqb]; try exact I; try (apply IH; assumption);
    match goal with |- context [if ?b then _ else _] => destruct b end; cbn [bind]; try exact I; apply IH; assumption.
  - destruct st as [|x [|y st]]; try exact I. unfold combine, operand, target.
    destruct (is_address y), (what y), (is_address x), (what x); cbn [bind symbol_eqb]; try exact I; try (apply IH; assumption);
    match goal with |- context [if ?b then _ else _] => destruct b end; cbn [bind]; try exact I; apply IH; assumption.
  - destruct st as [|x st]; [exact I|]. destruct So as (P1 & P2 & P3).
    pose proof (initialize_inside size s (root + off) p x H ltac:(lia) P2 P3) as W.
    destruct (initialize (root + off) p x s) as [s1| | | |]; cbn [bind]; try exact W. apply IH; assumption.
  - exact H.
Qed.
