(** Proofs about type specifiers and enumerators. *)
From Verif Require Import Base IntTypes DeclModel DeclSpec.
From Coq Require Import Permutation.

(** ** Specifiers *)
Definition index (s : specifier) : Z :=
  match s with
  | k_unsigned => 0 | k_signed => 1 | k_Bool => 2 | k_char => 3 | k_short => 4 | k_int => 5 | k_long => 6
  | k_int8 => 8 | k_int16 => 9 | k_int32 => 10 | k_int64 => 11 | k_float => 12 | k_double => 13 | k_void => 14
  end.
Definition specifier_eq_dec : forall a b : specifier, {a = b} + {a <> b}.
Proof. decide equality. Defined.

Lemma land_bit : forall m i, 0 <= i -> negb (Z.land m (2 ^ i) =? 0) = Z.testbit m i.
Proof.
  intros m i I. destruct (Z.eqb_spec (Z.land m (2 ^ i)) 0) as [E|E]; cbn [negb].
  - assert (T : Z.testbit (Z.land m (2 ^ i)) i = false) by (rewrite E; apply Z.bits_0).
    rewrite Z.land_spec, Z.pow2_bits_true, andb_true_r in T by lia. auto.
  - destruct (Z.testbit m i) eqn:T; [reflexivity|]. exfalso. apply E. apply Z.bits_inj. intro j.
    rewrite Z.land_spec, Z.bits_0. destruct (Z.eq_dec i j) as [->|D]; [rewrite T; reflexivity|].
    rewrite Z.pow2_bits_false by lia. apply andb_false_r.
Qed.
Lemma C_TYPE_index : forall s, C_TYPE s = 2 ^ index s.
Proof. destruct s; reflexivity. Qed.
Lemma index_range : forall s, 0 <= index s <= 14.
Proof. destruct s; cbn; lia. Qed.
Lemma index_inj : forall a b, index a = index b -> a = b.
Proof. destruct a, b; cbn; intros; try reflexivity; lia. Qed.
Lemma index_not_7 : forall s, index s <> 7.
Proof. destruct s; cbn; lia. Qed.

(** What a keyword does, in terms of bits. *)
Definition bit_of (m : Z) (s : specifier) : Z := if specifier_eq_dec s k_long then (if Z.testbit m 6 then 7 else 6) else index s.
Definition refused (m : Z) (s : specifier) : bool := if specifier_eq_dec s k_long then Z.testbit m 7 else Z.testbit m (index s).
Lemma add_bits : forall m s, add_specifier m s = if refused m s then Reported else Done (Z.lor m (2 ^ bit_of m s)).
Proof.
  intros m s. unfold refused, bit_of. destruct (specifier_eq_dec s k_long) as [->|D].
  - unfold add_specifier. change C_TYPE_long_long with (2 ^ 7). change (C_TYPE k_long) with (2 ^ 6).
    rewrite !land_bit by lia. destruct (Z.testbit m 7); [reflexivity|]. destruct (Z.testbit m 6); reflexivity.
  - rewrite <- (land_bit m (index s)) by (apply index_range). rewrite <- C_TYPE_index. destruct s; try reflexivity. congruence.
Qed.
Lemma bit_range : forall m s, 0 <= bit_of m s <= 14.
Proof. intros. unfold bit_of. pose proof (index_range s). destruct (specifier_eq_dec s k_long), (Z.testbit m 6); lia. Qed.
Lemma or_bit : forall m i j, 0 <= i -> Z.testbit (Z.lor m (2 ^ i)) j = Z.testbit m j || (i =? j).
Proof.
  intros m i j I. rewrite Z.lor_spec. f_equal. destruct (Z.eqb_spec i j) as [->|D].
  - apply Z.pow2_bits_true; lia.
  - apply Z.pow2_bits_false; lia.
Qed.

(** The order does not matter. *)
Lemma add_swap : forall m a b,
  obind (add_specifier m a) (fun m => add_specifier m b) = obind (add_specifier m b) (fun m => add_specifier m a).
Proof.
  intros m a b. rewrite !add_bits. destruct (specifier_eq_dec a b) as [<-|D]; [reflexivity|].
  pose proof (bit_range m a) as Ra. pose proof (bit_range m b) as Rb.
  assert (X : forall x y, x <> y -> refused (Z.lor m (2 ^ bit_of m x)) y = refused m y /\ bit_of (Z.lor m (2 ^ bit_of m x)) y = bit_of m y).
  { intros x y N. pose proof (bit_range m x) as Rx. unfold refused.
    assert (B : forall m', bit_of m' y = if specifier_eq_dec y k_long then (if Z.testbit m' 6 then 7 else 6) else index y) by reflexivity.
    rewrite !B. clear B.
    destruct (specifier_eq_dec y k_long) as [->|Dy].
    - rewrite !or_bit by lia. unfold bit_of. destruct (specifier_eq_dec x k_long); [congruence|].
      pose proof (index_not_7 x). assert (index x <> 6) by (intro E; apply (index_inj x k_long) in E; congruence).
      destruct (Z.eqb_spec (index x) 7); [lia|]. destruct (Z.eqb_spec (index x) 6); [lia|]. rewrite !orb_false_r. split; reflexivity.
    - split; [|reflexivity]. rewrite or_bit by lia.
      destruct (Z.eqb_spec (bit_of m x) (index y)) as [E|_]; [|apply orb_false_r].
      exfalso. unfold bit_of in E. pose proof (index_not_7 y). destruct (specifier_eq_dec x k_long) as [->|Dx].
      + assert (index y <> 6) by (intro E'; apply (index_inj y k_long) in E'; congruence). destruct (Z.testbit m 6); lia.
      + apply index_inj in E. congruence. }
  destruct (X a b D) as (X1 & X2). destruct (X b a ltac:(congruence)) as (Y1 & Y2).
  destruct (refused m a) eqn:Ea, (refused m b) eqn:Eb; cbn [obind]; rewrite ?add_bits, ?X1, ?X2, ?Y1, ?Y2, ?Ea, ?Eb; try reflexivity.
  rewrite <- !Z.lor_assoc. f_equal. f_equal. apply Z.lor_comm.
Qed.
Lemma add_order : forall l l', Permutation l l' -> forall m, add_specifiers m l = add_specifiers m l'.
Proof.
  induction 1 as [|a l l' P IH|a b l|l l' l'' P IH P' IH']; intro m.
  - reflexivity.
  - cbn [add_specifiers]. destruct (add_specifier m a); cbn [obind]; auto.
  - cbn [add_specifiers]. pose proof (add_swap m a b) as E.
    destruct (add_specifier m a) as [ma| |] eqn:Ea, (add_specifier m b) as [mb| |] eqn:Eb; cbn [obind] in *;
      try rewrite E; try reflexivity; try (rewrite <- E; reflexivity).
  - rewrite IH. apply IH'.
Qed.

(** The bits count the keywords. *)
Definition bit (m i : Z) : nat := if Z.testbit m i then 1%nat else 0%nat.
Definition counted (m : Z) (s : specifier) : nat := if specifier_eq_dec s k_long then (bit m 6 + bit m 7)%nat else bit m (index s).
Lemma bits_count : forall l m m', add_specifiers m l = Done m' -> (Z.testbit m 7 = true -> Z.testbit m 6 = true) ->
  forall s, (count_occ specifier_eq_dec l s + counted m s)%nat = counted m' s.
Proof.
  induction l as [|a l IH]; intros m m' H I s.
  - cbn [add_specifiers] in H. assert (m' = m) by congruence. subst. reflexivity.
  - cbn [add_specifiers] in H. rewrite add_bits in H. destruct (refused m a) eqn:R; [discriminate|]. cbn [obind] in H.
    pose proof (bit_range m a) as Ra.
    rewrite <- (IH _ _ H).
    + enough (E : counted (Z.lor m (2 ^ bit_of m a)) s = ((if specifier_eq_dec a s then 1 else 0) + counted m s)%nat).
      { cbn [count_occ]. destruct (specifier_eq_dec a s); lia. }
      unfold counted, bit. rewrite !or_bit by lia. unfold bit_of, refused in *.
      destruct (specifier_eq_dec a k_long) as [->|Da].
      * destruct (specifier_eq_dec k_long s) as [<-|Ds].
        -- destruct (specifier_eq_dec k_long k_long); [|congruence]. rewrite R. destruct (Z.testbit m 6); reflexivity.
        -- destruct (specifier_eq_dec s k_long); [congruence|].
           pose proof (index_not_7 s). assert (index s <> 6) by (intro E; apply (index_inj s k_long) in E; congruence).
           destruct (Z.testbit m 6); [destruct (Z.eqb_spec 7 (index s)); [lia|]|destruct (Z.eqb_spec 6 (index s)); [lia|]];
           rewrite ?orb_false_r; reflexivity.
      * pose proof (index_not_7 a). assert (index a <> 6) by (intro E; apply (index_inj a k_long) in E; congruence).
        destruct (specifier_eq_dec s k_long) as [->|Ds].
        -- destruct (Z.eqb_spec (index a) 6); [lia|]. destruct (Z.eqb_spec (index a) 7); [lia|]. rewrite !orb_false_r.
           destruct (specifier_eq_dec a k_long); [congruence|]. reflexivity.
        -- destruct (specifier_eq_dec a s) as [<-|Das].
           ++ rewrite R, Z.eqb_refl. reflexivity.
           ++ destruct (Z.eqb_spec (index a) (index s)) as [E|_]; [apply index_inj in E; congruence|]. rewrite orb_false_r. reflexivity.
    + rewrite !or_bit by lia. unfold bit_of, refused in *. destruct (specifier_eq_dec a k_long) as [->|Da].
      * rewrite R. destruct (Z.testbit m 6); cbn; auto; discriminate.
      * pose proof (index_not_7 a). destruct (Z.eqb_spec (index a) 7); [lia|]. rewrite orb_false_r. intro T. rewrite (I T). reflexivity.
Qed.

Lemma counts_permutation : forall l l' m,
  add_specifiers 0 l = Done m -> add_specifiers 0 l' = Done m -> Permutation l l'.
Proof.
  intros l l' m H H'. rewrite (Permutation_count_occ specifier_eq_dec). intro s.
  pose proof (bits_count l 0 m H ltac:(cbn; discriminate) s) as E.
  pose proof (bits_count l' 0 m H' ltac:(cbn; discriminate) s) as E'. lia.
Qed.

(** Each case of the switch belongs to one of the lists of the standard and back. *)
Definition listed : list (list specifier * basic_type) :=
  flat_map (fun '(ls, t) => map (fun l => (l, t)) ls) allowed.
Lemma listed_denotes : forall l t, In (l, t) listed <-> exists ls, In (ls, t) allowed /\ In l ls.
Proof.
  intros l t. unfold listed. rewrite in_flat_map. split.
  - intros ((ls & t') & H & H'). apply in_map_iff in H'. destruct H' as (l' & E & H'). assert (l' = l /\ t' = t) as (-> & ->) by (split; congruence).
    exists ls; auto.
  - intros (ls & H & H'). exists (ls, t). split; [exact H|]. apply in_map_iff. exists l. auto.
Qed.

Definition masks : list (Z * basic_type) :=
  map (fun '(l, t) => (match add_specifiers 0 l with Done m => m | _ => -1 end, t)) listed.
Lemma masks_of_listed : Forall (fun '(l, t) => exists m, add_specifiers 0 l = Done m /\ m <> 0 /\ switch m cases = Done t) listed.
Proof.
  vm_compute. repeat (apply Forall_cons; [eexists; split; [reflexivity|split; [discriminate|reflexivity]]|]). apply Forall_nil.
Qed.
Lemma cases_listed : Forall (fun '(m, t) => exists l, In (l, t) listed /\ add_specifiers 0 l = Done m) cases.
Proof.
  assert (H : forallb (fun '(m, t) => existsb (fun '(l, t') =>
      match add_specifiers 0 l with Done m' => (m =? m') | _ => false end &&
      match t, t' with
      | Void, Void => true
      | Arithmetic (AInt a), Arithmetic (AInt b) => ity_eqb a b
      | Arithmetic F32, Arithmetic F32 | Arithmetic F64, Arithmetic F64 => true
      | _, _ => false
      end) listed) cases = true) by (vm_compute; reflexivity).
  rewrite forallb_forall in H. apply Forall_forall. intros (m & t) I. specialize (H _ I). apply existsb_exists in H.
  destruct H as ((l & t') & I' & H). apply andb_true_iff in H. destruct H as (H1 & H2).
  exists l. assert (t = t').
  { destruct t as [|[a| |]], t' as [|[b| |]]; try discriminate; try reflexivity.
    destruct (ity_eqb_spec a b); [congruence|discriminate]. }
  subst t'. split; [exact I'|]. destruct (add_specifiers 0 l) as [m'| |]; try discriminate.
  apply Z.eqb_eq in H1. congruence.
Qed.
Lemma switch_in : forall m cs t, switch m cs = Done t -> In (m, t) cs.
Proof.
  induction cs as [|(c & t') cs IH]; intros t H; cbn [switch] in H; [discriminate|].
  destruct (Z.eqb_spec m c) as [->|D]; [left; congruence|right; auto].
Qed.

Theorem declared_type_exact : forall l t, declared_type l = Done t <-> denotes l t.
Proof.
  intros l t. unfold declared_type, denotes. split.
  - intros H. destruct (add_specifiers 0 l) as [m| |] eqn:E; try discriminate. cbn [obind] in H.
    destruct (m =? 0); [discriminate|]. apply switch_in in H.
    pose proof cases_listed as C. rewrite Forall_forall in C. destruct (C _ H) as (l' & I & E').
    apply listed_denotes in I. destruct I as (ls & I & I'). exists ls, l'. split; [exact I|split; [exact I'|]].
    eapply counts_permutation; eauto.
  - intros (ls & l' & I & I' & P). rewrite (add_order l l' P).
    pose proof masks_of_listed as M. rewrite Forall_forall in M.
    destruct (M (l', t)) as (m & E & N & S); [apply listed_denotes; eauto|].
    rewrite E. cbn [obind]. destruct (Z.eqb_spec m 0); [contradiction|exact S].
Qed.
Lemma declared_type_no_crash : forall l, declared_type l <> Crash.
Proof.
  intros l. unfold declared_type.
  assert (A : forall l m, add_specifiers m l <> Crash).
  { induction l0 as [|s l0 IH]; intros m; cbn [add_specifiers]; [discriminate|]. rewrite add_bits. destruct (refused m s); cbn [obind]; [discriminate|apply IH]. }
  assert (S : forall cs m, switch m cs <> Crash).
  { induction cs as [|(c & t) cs IH]; intros m; cbn [switch]; [discriminate|]. destruct (m =? c); [discriminate|apply IH]. }
  specialize (A l 0). destruct (add_specifiers 0 l) as [m| |]; cbn [obind]; [|discriminate|congruence].
  destruct (m =? 0); [discriminate|apply S].
Qed.

(** ** Enumerators *)
Definition as_int (x : Z) : bool := (-2^31 <=? x) && (x <? 2^32).

Lemma enumerate_numbered : forall l current values, enumerate current l = Done values ->
  Forall (fun e => match e with Some x => -2^63 <= x < 2^63 | None => True end) l ->
  -2^31 <= current <= 2^31 -> numbered_mod (current - 1) l values.
Proof.
  induction l as [|e l IH]; intros current values H F C.
  - cbn [enumerate] in H. assert (values = []) by congruence. subst. exact Logic.I.
  - cbn [enumerate] in H. inversion F as [|? ? Fe Fl]; subst.
    set (v := match e with Some v => integer_literal_as_s64 v | None => current end) in *.
    assert (Ev : v = match e with Some x => x | None => current - 1 + 1 end).
    { subst v. destruct e as [x|]; [unfold integer_literal_as_s64; apply wraps_id; lia|lia]. }
    destruct (Z.leb_spec (-0x80000000) v) as [L1|L1]; destruct (Z.leb_spec v 0x7fffffff) as [L2|L2]; cbn [andb] in H.
    + destruct (enumerate (v + 1) l) as [vs| |] eqn:E; cbn [obind] in H; try discriminate.
      assert (values = v :: vs) by congruence. subst values. cbn [numbered_mod].
      split; [lia|]. split; [exists 0; rewrite <- Ev; lia|].
      replace v with (v + 1 - 1) by lia. apply IH; [exact E|exact Fl|lia].
    + destruct (Z.ltb_spec 0x7fffffff v) as [_|?]; [|lia]. destruct (Z.leb_spec v 0xffffffff) as [L3|L3]; cbn [andb] in H; [|discriminate].
      pose proof (wraps_range 32 v ltac:(lia)) as R. pose proof (wraps_cong 32 v ltac:(lia)) as (k & K).
      remember (wraps 32 v) as w eqn:Ew.
      destruct (enumerate (w + 1) l) as [vs| |] eqn:E; cbn [obind] in H; try discriminate.
      assert (values = w :: vs) by congruence. subst values. cbn [numbered_mod].
      split; [exact R|]. split; [exists k; rewrite <- Ev; exact K|].
      replace w with (w + 1 - 1) by lia. apply IH; [exact E|exact Fl|lia].
    + destruct (Z.ltb_spec 0x7fffffff v); [lia|]. discriminate.
    + lia.
Qed.

Lemma enumerate_ok : forall l current,
  Forall (fun e => match e with Some x => -2^63 <= x < 2^63 | None => True end) l -> -2^31 <= current <= 2^31 ->
  ((exists values, enumerate current l = Done values) <-> Forall (fun e => match e with Some x => -2^31 <= x < 2^32 | None => True end) l)
  /\ enumerate current l <> Crash.
Proof.
  induction l as [|e l IH]; intros current F C.
  - split; [|discriminate]. split; [constructor|intros _; exists []; reflexivity].
  - inversion F as [|? ? Fe Fl]; subst. cbn [enumerate].
    set (v := match e with Some v => integer_literal_as_s64 v | None => current end) in *.
    assert (Ev : v = match e with Some x => x | None => current end).
    { subst v. destruct e as [x|]; [unfold integer_literal_as_s64; apply wraps_id; lia|reflexivity]. }
    assert (Case : forall w, -2^31 <= w < 2^31 -> -2^31 <= v < 2^32 ->
      ((exists values, obind (enumerate (w + 1) l) (fun values => Done (w :: values)) = Done values) <->
       Forall (fun e => match e with Some x => -2^31 <= x < 2^32 | None => True end) (e :: l)) /\
      obind (enumerate (w + 1) l) (fun values => Done (w :: values)) <> Crash).
    { intros w R V. destruct (IH (w + 1) Fl ltac:(lia)) as (I1 & I2).
      destruct (enumerate (w + 1) l) as [vs| |]; cbn [obind]; split; try discriminate; try congruence; split.
      - intros _. constructor; [destruct e; [lia|exact Logic.I]|]. apply I1. eauto.
      - eauto.
      - intros (? & ?); discriminate.
      - intros H. inversion H; subst. destruct (proj2 I1) as (? & ?); [assumption|discriminate].
    }
    destruct (Z.leb_spec (-0x80000000) v) as [L1|L1]; destruct (Z.leb_spec v 0x7fffffff) as [L2|L2]; cbn [andb].
    + apply Case; lia.
    + destruct (Z.ltb_spec 0x7fffffff v) as [_|?]; [|lia]. destruct (Z.leb_spec v 0xffffffff) as [L3|L3]; cbn [andb].
      * apply Case; [exact (wraps_range 32 v ltac:(lia))|lia].
      * split; [|discriminate]. split; [intros (? & ?); discriminate|]. intros G. inversion G as [|? ? He]; subst. destruct e; lia.
    + destruct (Z.ltb_spec 0x7fffffff v); [lia|]. cbn [andb].
      split; [|discriminate]. split; [intros (? & ?); discriminate|]. intros G. inversion G as [|? ? He]; subst. destruct e; lia.
    + lia.
Qed.

(** When everything stays inside int, nothing is reduced. *)
Lemma enumerate_exact : forall l current values, numbered (current - 1) l values -> Forall (fun v => -2^31 <= v < 2^31) values ->
  enumerate current l = Done values.
Proof.
  induction l as [|e l IH]; intros current [|v values] H F; try contradiction; [reflexivity|].
  destruct H as (Ev & H). inversion F as [|? ? Fv Fl]; subst. cbn [enumerate].
  set (w := match e with Some v => integer_literal_as_s64 v | None => current end).
  assert (Ew : w = match e with Some x => x | None => current - 1 + 1 end).
  { subst w. destruct e as [x|]; [unfold integer_literal_as_s64; apply wraps_id; lia|lia]. }
  rewrite Ew. destruct (Z.leb_spec (-0x80000000) (match e with Some x => x | None => current - 1 + 1 end)) as [_|?]; [|lia].
  destruct (Z.leb_spec (match e with Some x => x | None => current - 1 + 1 end) 0x7fffffff) as [_|?]; [|lia]. cbn [andb].
  rewrite (IH _ values); [reflexivity| |exact Fl].
  replace (match e with Some x => x | None => current - 1 + 1 end + 1 - 1) with (match e with Some x => x | None => current - 1 + 1 end) by lia.
  exact H.
Qed.
