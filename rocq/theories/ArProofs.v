From Verif Require Import Base ArModel ArSpec.

Lemma zlen_app : forall A (a b : list A), zlen (a ++ b) = zlen a + zlen b.
Proof. intros. unfold zlen. rewrite app_length. lia. Qed.
Lemma zlen_nonneg : forall A (a : list A), 0 <= zlen a.
Proof. intros. unfold zlen. lia. Qed.
Lemma zlen_cons : forall A (x : A) l, zlen (x :: l) = 1 + zlen l.
Proof. intros. unfold zlen. cbn [length]. lia. Qed.

(** * Reads *)
Lemma read_done : forall f o n, 0 <= o -> 0 <= n -> o + n <= zlen f ->
  exists b, read f o n = Done b /\ zlen b = n /\ b = firstn (Z.to_nat n) (skipn (Z.to_nat o) f).
Proof.
  intros f o n H1 H2 H3. unfold read.
  replace ((0 <=? o) && (0 <=? n) && (o + n <=? zlen f)) with true by lia.
  eexists. split; [reflexivity|]. split; auto. unfold zlen in *. rewrite firstn_length, skipn_length. lia.
Qed.

Lemma le_nonneg : forall b, Forall byte b -> 0 <= little_endian b.
Proof. induction 1; cbn [little_endian]; [lia|]. unfold byte in H. lia. Qed.

Lemma Forall_firstn : forall A (P : A -> Prop) n l, Forall P l -> Forall P (firstn n l).
Proof. induction n; intros l H; cbn; [constructor|]. destruct H; constructor; auto. Qed.
Lemma Forall_skipn : forall A (P : A -> Prop) n l, Forall P l -> Forall P (skipn n l).
Proof. induction n; intros l H; cbn; auto. destruct H; auto. Qed.

Lemma read_int_done : forall f o n, Forall byte f -> 0 <= o -> 0 <= n -> o + n <= zlen f -> exists v, read_int f o n = Done v /\ 0 <= v.
Proof.
  intros f o n B H1 H2 H3. destruct (read_done f o n H1 H2 H3) as (b & E & _ & E2). unfold read_int. rewrite E. cbn.
  eexists. split; eauto. apply le_nonneg. subst b. apply Forall_firstn, Forall_skipn. auto.
Qed.

Lemma read_at : forall a l b o n, o = zlen a -> n = zlen l -> read (a ++ l ++ b) o n = Done l.
Proof.
  intros a l b o n -> ->. unfold read. rewrite !zlen_app. pose proof (zlen_nonneg _ a). pose proof (zlen_nonneg _ l). pose proof (zlen_nonneg _ b).
  replace ((0 <=? zlen a) && (0 <=? zlen l) && (zlen a + zlen l <=? zlen a + (zlen l + zlen b))) with true by lia.
  unfold zlen. rewrite !Nat2Z.id. rewrite skipn_app, skipn_all, Nat.sub_diag. cbn [app skipn].
  rewrite firstn_app, Nat.sub_diag, firstn_all. cbn. rewrite app_nil_r. reflexivity.
Qed.

Lemma read_at' : forall f o n l, at_ f o l -> n = zlen l -> read f o n = Done l.
Proof. intros f o n l (a & b & -> & E) ->. apply read_at; auto. Qed.

Lemma at_sub : forall f o x l y, at_ f o (x ++ l ++ y) -> at_ f (o + zlen x) l.
Proof.
  intros f o x l y (a & b & -> & E). exists (a ++ x), (y ++ b). rewrite <- !app_assoc. split; auto.
  rewrite app_length. unfold zlen. lia.
Qed.
Lemma at_pre : forall f o l y, at_ f o (l ++ y) -> at_ f o l.
Proof. intros f o l y (a & b & -> & E). exists a, (y ++ b). rewrite <- !app_assoc. auto. Qed.
Lemma at_post : forall f o x l, at_ f o (x ++ l) -> at_ f (o + zlen x) l.
Proof. intros f o x l H. apply at_sub with (y := []). rewrite app_nil_r. auto. Qed.

Lemma at_end : forall f o l, at_ f o l -> 0 <= o /\ o + zlen l <= zlen f.
Proof. intros f o l (a & b & -> & E). rewrite !zlen_app. unfold zlen. lia. Qed.

Lemma at_skipn : forall f o l, at_ f o l -> exists b, skipn (Z.to_nat o) f = l ++ b.
Proof.
  intros f o l (a & b & -> & E). exists b. rewrite <- E, Nat2Z.id, skipn_app, skipn_all, Nat.sub_diag. reflexivity.
Qed.

(** * Numbers *)
Lemma le_u32 : forall x, 0 <= x < 2 ^ 32 -> little_endian (u32le x) = x.
Proof.
  intros x H. change (2 ^ 32) with 4294967296 in H. unfold u32le. cbn [little_endian].
  pose proof (Z.div_mod x 256). pose proof (Z.mod_pos_bound x 256).
  replace 65536 with (256 * 256) by lia. replace 16777216 with (256 * 256 * 256) by lia.
  rewrite <- !Z.div_div by lia. set (a := x / 256) in *.
  pose proof (Z.div_mod a 256). pose proof (Z.mod_pos_bound a 256). set (b := a / 256) in *.
  pose proof (Z.div_mod b 256). pose proof (Z.mod_pos_bound b 256). set (c := b / 256) in *.
  rewrite (Z.mod_small c 256) by lia. lia.
Qed.
Lemma le_u16 : forall x, 0 <= x < 65536 -> little_endian (u16le x) = x.
Proof.
  intros x H. unfold u16le. cbn [little_endian].
  pose proof (Z.div_mod x 256). pose proof (Z.mod_pos_bound x 256). rewrite (Z.mod_small (x / 256)) by lia. lia.
Qed.

(** * Strings *)
Lemma strip_spaces : forall k l, strip_front (repeat 32 k ++ l) = strip_front l.
Proof. induction k; intros; cbn; auto. Qed.
Lemma strip_none : forall l, Forall (fun c => c <> 32) l -> strip_front l = l.
Proof.
  intros l H. destruct H as [|c l N _]; auto. cbn. destruct c as [|p|]; auto. repeat (destruct p; auto). congruence.
Qed.
Lemma strip_padded : forall l k, Forall (fun c => c <> 32) l -> string_strip_whitespace (l ++ repeat 32 k) = l.
Proof.
  intros l k H. unfold string_strip_whitespace. rewrite rev_app_distr.
  assert (R : forall n, rev (repeat 32 n) = repeat 32 n).
  { induction n; auto. cbn [repeat rev]. rewrite IHn. symmetry. apply repeat_cons. }
  rewrite R, strip_spaces, (strip_none (rev l)) by (apply Forall_rev; auto). rewrite rev_involutive. apply strip_none; auto.
Qed.

Lemma decimal_ok : forall s r, Forall (fun d => 48 <= d <= 57) s -> 0 <= r -> (r + 1) * 10 ^ zlen s <= 10 ^ 10 ->
  decimal_digits s r = Some (fold_left (fun v d => 10 * v + (d - 48)) s r).
Proof.
  induction s as [|d s IH]; intros r D R B; cbn [decimal_digits fold_left]; auto. inversion D; subst.
  assert (P : 0 < 10 ^ zlen s) by (apply Z.pow_pos_nonneg; [lia|apply zlen_nonneg]).
  assert (B' : (r + 1) * (10 * 10 ^ zlen s) <= 10 ^ 10).
  { rewrite zlen_cons in B. rewrite Z.pow_add_r in B by (try lia; apply zlen_nonneg). exact B. }
  assert (RB : r + 1 <= 10 ^ 10) by nia. change (10 ^ 10) with 10000000000 in *.
  rewrite (wrapu_id 64 (d - 48)) by (change (2 ^ 64) with 18446744073709551616; lia).
  replace (d - 48 >? 10) with false by lia.
  rewrite wrapu_id by (change (2 ^ 64) with 18446744073709551616; lia).
  replace (r * 10 + (d - 48)) with (10 * r + (d - 48)) by lia. apply IH; auto; [lia|]. nia.
Qed.

Lemma numeral_ok : forall s n, (length s <= 10)%nat -> numeral s n -> string_to_u64 s = Some n.
Proof.
  intros s n L (NE & D & V). unfold string_to_u64.
  assert (NH : (2 <? zlen s) && (nth 0 s 0 =? 48) && (Z.lor (nth 1 s 0) 32 =? 120) = false).
  { destruct (Z.ltb_spec 2 (zlen s)); auto. cbn [andb]. apply andb_false_iff. right.
    assert (I : In (nth 1 s 0) s) by (apply nth_In; unfold zlen in *; lia).
    rewrite Forall_forall in D. specialize (D _ I). cbv beta in D.
    assert (C : nth 1 s 0 = 48 \/ nth 1 s 0 = 49 \/ nth 1 s 0 = 50 \/ nth 1 s 0 = 51 \/ nth 1 s 0 = 52 \/
                nth 1 s 0 = 53 \/ nth 1 s 0 = 54 \/ nth 1 s 0 = 55 \/ nth 1 s 0 = 56 \/ nth 1 s 0 = 57) by lia.
    repeat destruct C as [C|C]; rewrite ?C; reflexivity. }
  rewrite NH. rewrite decimal_ok; auto; [|lia|].
  - unfold value in V. congruence.
  - rewrite Z.mul_1_l. apply Z.pow_le_mono_r; unfold zlen; lia.
Qed.

Lemma decimal_nonneg : forall s r v, 0 <= r -> decimal_digits s r = Some v -> 0 <= v.
Proof.
  induction s as [|c s IH]; cbn; intros r v R E; [congruence|]. destruct (_ >? 10); [discriminate|].
  eapply IH; [|exact E]. apply wrapu_range; lia.
Qed.
Lemma hex_nonneg : forall s r, 0 <= r -> 0 <= hex_digits s r.
Proof. induction s; cbn; intros; auto. apply IHs. apply wrapu_range; lia. Qed.
Lemma to_u64_nonneg : forall s v, string_to_u64 s = Some v -> 0 <= v.
Proof.
  intros s v. unfold string_to_u64. destruct (_ && _).
  - intros [= <-]. apply hex_nonneg; lia.
  - apply decimal_nonneg; lia.
Qed.

Lemma zero_term : forall l k, nth_error l k = Some 0 -> exists s, zero_terminated l = Done s /\ (length s <= k)%nat.
Proof.
  induction l as [|c l IH]; intros k E; [destruct k; discriminate|].
  destruct (Z.eq_dec c 0) as [->|N].
  - exists []. split; auto. cbn; lia.
  - destruct k; [cbn in E; congruence|]. destruct (IH k E) as [s [Z L]]. exists (c :: s).
    cbn [zero_terminated]. rewrite Z. destruct c; [congruence| |]; cbn; split; auto; lia.
Qed.

Lemma zero_term_app : forall s r, Forall (fun c => c <> 0) s -> zero_terminated (s ++ 0 :: r) = Done s.
Proof.
  induction 1 as [|c s N F IH]; cbn [app zero_terminated]; auto. rewrite IH. destruct c; [congruence| |]; reflexivity.
Qed.

Lemma nth_error_skipn : forall A n (l : list A) k, nth_error (skipn n l) k = nth_error l (n + k).
Proof. induction n; intros l k; cbn; auto. destruct l; auto. destruct k; auto. Qed.

Lemma cstring_done : forall f o z, 0 <= o <= z -> nth_error f (Z.to_nat z) = Some 0 ->
  exists s, cstring_at f o = Done s /\ o + zlen s <= z.
Proof.
  intros f o z H E. unfold cstring_at. replace (o <? 0) with false by lia.
  destruct (zero_term (skipn (Z.to_nat o) f) (Z.to_nat (z - o))) as [s [Z L]].
  { rewrite nth_error_skipn. rewrite <- E. f_equal. lia. }
  rewrite Z. cbn. eexists. split; eauto. unfold zlen. rewrite firstn_length. lia.
Qed.

Lemma string_list_done : forall fuel f it e, 0 <= it -> it <= e -> e - it < Z.of_nat fuel ->
  nth_error f (Z.to_nat (e - 1)) = Some 0 -> exists l, string_list fuel f it e = Done l.
Proof.
  induction fuel as [|fuel IH]; intros f it e H1 H2 H3 E; [lia|]. cbn [string_list].
  destruct (Z.ltb_spec it e); [|eauto].
  destruct (cstring_done f it (e - 1) ltac:(lia) E) as [s [S L]]. rewrite S. cbn [obind].
  pose proof (zlen_nonneg _ s).
  destruct (IH f (it + zlen s + 1) e) as [l ->]; auto; try lia. cbn. eauto.
Qed.

(** * Safety of the parser *)
Lemma sections_safe : forall fuel f i a b, 0 <= i -> 0 <= a -> 3 - i <= Z.of_nat fuel -> (0 < fuel)%nat ->
  (forall x y, b = Some (x, y) -> 0 <= x /\ 0 <= y /\ x + y <= zlen f) ->
  sections fuel f i a b <> Crash /\
  forall x y, sections fuel f i a b = Done (Some (x, y)) -> 0 <= x /\ 0 <= y /\ x + y <= zlen f.
Proof.
  induction fuel as [|fuel IH]; intros f i a b I A F FP B; [lia|]. cbn [sections].
  destruct (Z.leb_spec (a + 60) (zlen f)); [|split; [congruence|intros x y E; apply B; congruence]].
  destruct (read_done f a 16) as (ib & -> & _); try lia. cbn [obind].
  destruct (read_done f (a + 48) 10) as (sb & -> & _); try lia. cbn [obind].
  destruct (string_to_u64 (string_strip_whitespace sb)) as [fs|] eqn:U; [|split; congruence].
  apply to_u64_nonneg in U.
  destruct ((fs >? zlen f) || (a + 60 + fs >? zlen f)) eqn:C; [split; congruence|].
  apply orb_false_iff in C. destruct C as [C1 C2].
  assert (0 <= Z.land fs 1) by (apply Z.land_nonneg; lia).
  destruct ((i =? 0) && _) eqn:C0.
  { apply andb_true_iff in C0. destruct C0. apply IH; auto; lia. }
  destruct ((i =? 1) && _) eqn:C3.
  { apply andb_true_iff in C3. destruct C3. apply IH; auto; try lia. intros x y [= <- <-]. lia. }
  split; [congruence|]. intros x y E. apply B. congruence.
Qed.

Definition lib_ok (lib : library_node) : Prop :=
  let f := lib_file lib in
  Forall byte f /\ 0 <= amount_of_members lib /\ 0 <= member_offsets lib /\
  member_offsets lib + 4 * amount_of_members lib + 4 = symbol_member_indices lib /\
  symbol_member_indices lib + 2 * amount_of_symbols lib <= zlen f /\
  zlen (import_symbol_string_table lib) = amount_of_symbols lib.

Lemma last_zero : forall f o, Forall byte f -> 0 <= o -> o + 1 <= zlen f -> read_int f o 1 = Done 0 -> nth_error f (Z.to_nat o) = Some 0.
Proof.
  intros f o B H1 H2 E. unfold read_int in E. destruct (read_done f o 1 ltac:(lia) ltac:(lia) ltac:(lia)) as (b & R & L & E2).
  rewrite R in E. cbn in E. destruct b as [|x [|y b]].
  - unfold zlen in L; cbn in L; lia.
  - cbn in E. injection E as E. assert (x = 0) by lia. subst x.
    rewrite <- (Nat.add_0_r (Z.to_nat o)), <- nth_error_skipn. change (Z.to_nat 1) with 1%nat in E2.
    destruct (skipn (Z.to_nat o) f) as [|z r]; [discriminate|]. cbn in E2. injection E2 as <-. reflexivity.
  - unfold zlen in L; cbn [length] in L; lia.
Qed.

Lemma parse_safe : forall f, Forall byte f ->
  ar_parse_file f <> Crash /\ (forall lib, ar_parse_file f = Done (Some lib) -> lib_file lib = f /\ lib_ok lib).
Proof.
  intros f B. unfold ar_parse_file.
  destruct (Z.ltb_spec (zlen f) 8); [split; congruence|].
  destruct (read_done f 0 8) as (sg & -> & _); try lia. cbn [obind].
  destruct (list_eq_dec _ sg _); [|split; congruence].
  destruct (Z.eqb_spec (zlen f) 8); [split; congruence|].
  destruct (sections_safe 3 f 0 8 None) as [NC RG]; try lia; try congruence.
  destruct (sections 3 f 0 8 None) as [[[base size]|]| |] eqn:S; cbn [obind]; try (split; congruence).
  destruct (RG base size eq_refl) as (H1 & H2 & H3).
  destruct (Z.ltb_spec size 4); [split; congruence|].
  destruct (read_int_done f (base + size - 1) 1 B) as (last & RL & _); try lia. rewrite RL. cbn [obind].
  destruct (Z.eqb_spec last 0) as [->|]; cbn [negb]; [|split; congruence].
  destruct (read_int_done f base 4 B) as (members & -> & M0); try lia. cbn [obind].
  destruct (base + 4 + 4 * members + 4 >? base + size) eqn:C1; [split; congruence|].
  destruct (read_int_done f (base + 4 + 4 * members) 4 B) as (symbols & -> & S0); try lia. cbn [obind].
  destruct (Z.eqb_spec symbols 0); [split; congruence|].
  cbn [obind].
  destruct (base + 4 + 4 * members + 4 + 2 * symbols >=? base + size) eqn:C2; [split; cbn; congruence|]. cbn [orb negb Z.eqb].
  pose proof (last_zero f (base + size - 1) B ltac:(lia) ltac:(lia) RL) as LZ.
  destruct (string_list_done (Datatypes.S (Z.to_nat size)) f (base + 4 + 4 * members + 4 + 2 * symbols) (base + size)) as [strs ->]; try lia; auto.
  cbn [obind].
  destruct (Z.eqb_spec (zlen strs) symbols); cbn [negb]; [|split; congruence].
  destruct (zlen strs =? 0); [split; congruence|].
  split; [congruence|]. intros lib E. match type of E with Done (Some ?x) = _ => assert (EL : lib = x) by congruence end. subst lib. clear E. split; [reflexivity|]. unfold lib_ok; cbn [lib_file amount_of_members member_offsets amount_of_symbols symbol_member_indices import_symbol_string_table]. repeat split; auto; lia.
Qed.

(** * The binary search *)
Lemma compare_eq : forall a b, string_compare_lexically a b = Eq <-> a = b.
Proof.
  induction a as [|x a IH]; intros [|y b]; cbn; try (split; congruence).
  destruct (Z.ltb_spec x y); [split; [congruence|intros [= -> ->]; lia]|].
  rewrite Z.gtb_ltb. destruct (Z.ltb_spec y x); [split; [congruence|intros [= -> ->]; lia]|].
  assert (x = y) by lia. subst. rewrite IH. split; congruence.
Qed.
Lemma compare_lt : forall a b, before a b -> string_compare_lexically a b = Lt.
Proof.
  induction 1; cbn; auto.
  - replace (x <? y) with true by lia. auto.
  - rewrite Z.ltb_irrefl, Z.gtb_ltb, Z.ltb_irrefl. auto.
Qed.
Lemma compare_gt : forall a b, before a b -> string_compare_lexically b a = Gt.
Proof.
  induction 1; cbn; auto.
  - replace (y <? x) with false by lia. rewrite Z.gtb_ltb. replace (x <? y) with true by lia. auto.
  - rewrite Z.ltb_irrefl, Z.gtb_ltb, Z.ltb_irrefl. auto.
Qed.

Lemma in_order_nth : forall ns, in_order ns -> forall i j a b, (i < j)%nat -> nth_error ns i = Some a -> nth_error ns j = Some b -> before a b.
Proof.
  induction 1 as [|n ns H O IH]; intros i j a b L A B; [destruct i; discriminate|].
  destruct j; [lia|]. destruct i.
  - cbn in A. injection A as <-. apply H. eapply nth_error_In; eauto.
  - apply (IH i j a b); auto; lia.
Qed.

Lemma search_safe : forall fuel ss id mn mx, 0 <= mn -> mx < zlen ss -> mx - mn + 1 < Z.of_nat fuel -> (0 < fuel)%nat ->
  exists r, binary_search fuel ss id mn mx = Done r /\ (r = -1 \/ (0 <= r < zlen ss /\ nth_error ss (Z.to_nat r) = Some id)).
Proof.
  induction fuel as [|fuel IH]; intros ss id mn mx H1 H2 H3 FP; [lia|]. cbn [binary_search].
  rewrite Z.geb_leb. destruct (Z.leb_spec 0 (mx - mn)); [|eexists; split; eauto].
  assert (Q : 0 <= Z.quot (mx - mn) 2 <= mx - mn).
  { rewrite Z.quot_div_nonneg by lia. split; [apply Z.div_pos; lia|]. apply Z.div_le_upper_bound; lia. }
  set (a := mn + Z.quot (mx - mn) 2) in *. replace (a <? 0) with false by lia.
  destruct (nth_error ss (Z.to_nat a)) as [s|] eqn:N.
  2:{ apply nth_error_None in N. unfold zlen in *. lia. }
  destruct (string_compare_lexically id s) eqn:C.
  - apply compare_eq in C. subst s. exists a. split; auto. right. split; auto. lia.
  - apply IH; lia.
  - apply IH; lia.
Qed.

Lemma search_complete : forall fuel ss id mn mx i, in_order ss -> nth_error ss (Z.to_nat i) = Some id -> mn <= i <= mx ->
  0 <= mn -> mx < zlen ss -> mx - mn + 1 < Z.of_nat fuel -> (0 < fuel)%nat -> binary_search fuel ss id mn mx = Done i.
Proof.
  induction fuel as [|fuel IH]; intros ss id mn mx i O NI R H1 H2 H3 FP; [lia|]. cbn [binary_search].
  rewrite Z.geb_leb. destruct (Z.leb_spec 0 (mx - mn)); [|lia].
  assert (Q : 0 <= Z.quot (mx - mn) 2 <= mx - mn).
  { rewrite Z.quot_div_nonneg by lia. split; [apply Z.div_pos; lia|]. apply Z.div_le_upper_bound; lia. }
  set (a := mn + Z.quot (mx - mn) 2) in *. replace (a <? 0) with false by lia.
  destruct (nth_error ss (Z.to_nat a)) as [s|] eqn:N.
  2:{ apply nth_error_None in N. unfold zlen in *. lia. }
  destruct (Z.lt_trichotomy i a) as [L|[L|L]].
  - rewrite (compare_lt id s) by (eapply in_order_nth; [exact O| |exact NI|exact N]; lia). apply IH; auto; lia.
  - subst i. assert (s = id) by congruence. subst s. rewrite (proj2 (compare_eq id id) eq_refl). auto.
  - rewrite (compare_gt s id) by (eapply in_order_nth; [exact O| |exact N|exact NI]; lia). apply IH; auto; lia.
Qed.

(** * Safety of the lookup *)
Lemma lookup_overrun : forall lib id, lib_ok lib ->
  (exists r, ar_lookup_symbol lib id = Done r) \/
  exists off size, 0 <= off /\ off + 60 <= zlen (lib_file lib) /\
    string_to_u64 (string_strip_whitespace (firstn 10 (skipn (Z.to_nat (off + 48)) (lib_file lib)))) = Some size /\
    off + size <= zlen (lib_file lib) < off + 60 + size.
Proof.
  intros lib id (B & M0 & O0 & EQ & I & SL). unfold ar_lookup_symbol.
  set (f := lib_file lib) in *. set (ss := import_symbol_string_table lib) in *.
  destruct (search_safe (S (length ss)) ss id 0 (zlen ss - 1)) as (r & -> & R); try lia; [unfold zlen; lia|]. cbn [obind].
  destruct (Z.eqb_spec r (-1)); [left; eauto|]. destruct R as [|[R _]]; [lia|].
  rewrite Z.geb_leb. replace (amount_of_symbols lib <=? r) with false by lia.
  destruct (read_int_done f (symbol_member_indices lib + 2 * r) 2 B) as (mi & -> & MI); try lia. cbn [obind].
  destruct ((mi =? 0) || (mi >? amount_of_members lib)) eqn:C; [left; eauto|].
  destruct (read_int_done f (member_offsets lib + 4 * (mi - 1)) 4 B) as (off & -> & OFF); try lia. cbn [obind].
  destruct (off + 60 >? zlen f) eqn:C2; [left; eauto|].
  destruct (read_done f (off + 48) 10) as (sb & -> & _ & SB); try lia. cbn [obind]. change (Z.to_nat 10) with 10%nat in SB.
  destruct (string_to_u64 (string_strip_whitespace sb)) as [fs|] eqn:U; [|left; eauto].
  destruct ((fs >? zlen f) || (off + fs >? zlen f)) eqn:C3; [left; eauto|].
  destruct (Z.ltb_spec fs 20); [left; eauto|].
  destruct (Z_le_gt_dec (off + 60 + fs) (zlen f)) as [IN|OUT].
  2:{ right. exists off, fs. subst sb. repeat split; auto; lia. }
  left.
  destruct (read_int_done f (off + 60) 2 B) as (s1 & -> & _); try lia. cbn [obind].
  destruct (read_int_done f (off + 60 + 2) 2 B) as (s2 & -> & _); try lia. cbn [obind].
  destruct (_ && _); [|eauto].
  destruct (fs <=? 20 + zlen id + 1); [eauto|].
  destruct (read_int_done f (off + 60 + fs - 1) 1 B) as (la & -> & _); try lia. cbn [obind].
  destruct (negb _); eauto.
Qed.

(** * A well-formed archive *)
Lemma header_parts : forall h name n, header h name n -> exists dates digits,
  h = name ++ repeat 32 (16 - length name) ++ dates ++ digits ++ repeat 32 (10 - length digits) ++ [96; 10] /\
  (length name <= 16)%nat /\ length dates = 32%nat /\ (length digits <= 10)%nat /\ numeral digits n.
Proof. intros h name n H. inversion H; subst. eauto 10. Qed.

Lemma header_len : forall h name n, header h name n -> zlen h = 60.
Proof.
  intros h name n H. destruct (header_parts _ _ _ H) as (dates & digits & -> & L1 & L2 & L3 & _).
  unfold zlen. rewrite !app_length, !repeat_length, L2. cbn [length]. lia.
Qed.

Lemma digits_ns : forall digits n, numeral digits n -> Forall (fun c => c <> 32) digits.
Proof. intros digits n (_ & D & _). eapply Forall_impl; [|exact D]. cbn. intros; lia. Qed.

Lemma header_reads : forall f o h name n, at_ f o h -> header h name n ->
  read f o 16 = Done (name ++ repeat 32 (16 - length name)) /\
  exists sb, read f (o + 48) 10 = Done sb /\ string_to_u64 (string_strip_whitespace sb) = Some n.
Proof.
  intros f o h name n A H. destruct (header_parts _ _ _ H) as (dates & digits & -> & L1 & L2 & L3 & N). split.
  - apply read_at'.
    + eapply at_pre. rewrite <- !app_assoc. exact A.
    + unfold zlen. rewrite app_length, repeat_length. lia.
  - exists (digits ++ repeat 32 (10 - length digits)). split.
    + apply read_at'.
      * replace (o + 48) with (o + zlen (name ++ repeat 32 (16 - length name) ++ dates)).
        2:{ unfold zlen. rewrite !app_length, repeat_length, L2. lia. }
        eapply at_sub. rewrite <- !app_assoc. exact A.
      * unfold zlen. rewrite app_length, repeat_length. lia.
    + rewrite strip_padded by (eapply digits_ns; eauto). apply numeral_ok; auto.
Qed.

Lemma pad_len : forall l, Z.land (zlen l) 1 = zlen (pad l).
Proof.
  intros l. change 1 with (Z.ones 1) at 1. rewrite Z.land_ones by lia. unfold pad, zlen.
  rewrite <- Nat.negb_even. change (2 ^ 1) with 2.
  destruct (Nat.even (length l)) eqn:E; cbn [negb length].
  - apply Nat.even_spec in E. destruct E as [m ->]. rewrite Nat2Z.inj_mul, Z.mul_comm. apply Z.mod_mul. lia.
  - assert (O : Nat.odd (length l) = true) by (rewrite <- Nat.negb_even, E; auto).
    apply Nat.odd_spec in O. destruct O as [m ->]. rewrite Nat2Z.inj_add, Nat2Z.inj_mul.
    rewrite Z.add_comm, Z.mul_comm, Z.mod_add by lia. reflexivity.
Qed.

Lemma step_section : forall fuel f i a b h name data, at_ f a (h ++ data) -> header h name (zlen data) ->
  sections (S fuel) f i a b =
    (if (i =? 0) && (if list_eq_dec Z.eq_dec (string_strip_whitespace (name ++ repeat 32 (16 - length name))) [47] then true else false)
     then sections fuel f (i + 1) (a + zlen (h ++ data ++ pad data)) b
     else if (i =? 1) && (if list_eq_dec Z.eq_dec (string_strip_whitespace (name ++ repeat 32 (16 - length name))) [47] then true else false)
     then sections fuel f (i + 1) (a + zlen (h ++ data ++ pad data)) (Some (a + 60, zlen data))
     else Done b).
Proof.
  intros fuel f i a b h name data A H. cbn [sections].
  pose proof (header_len _ _ _ H) as HL. pose proof (at_end _ _ _ A) as [A0 AE]. rewrite zlen_app, HL in AE.
  pose proof (zlen_nonneg _ data).
  replace (a + 60 <=? zlen f) with true by lia.
  destruct (header_reads f a h name (zlen data) (at_pre _ _ _ _ A) H) as [-> (sb & -> & U)]. cbn [obind].
  rewrite U. replace ((zlen data >? zlen f) || (a + 60 + zlen data >? zlen f)) with false by lia.
  rewrite pad_len, !zlen_app, HL.
  replace (a + 60 + zlen data + zlen (pad data)) with (a + (60 + (zlen data + zlen (pad data)))) by lia. reflexivity.
Qed.

Lemma concat_nth : forall A (g : A -> list Z) l i x k, (forall y, zlen (g y) = k) -> nth_error l i = Some x ->
  exists a b, concat (map g l) = a ++ g x ++ b /\ zlen a = k * Z.of_nat i.
Proof.
  intros A g l i x k K N. apply nth_error_split in N. destruct N as (l1 & l2 & -> & L).
  exists (concat (map g l1)), (concat (map g l2)). rewrite map_app, concat_app. cbn. split; auto.
  rewrite <- L. clear L. induction l1 as [|y l1 IH]; cbn; [unfold zlen; cbn; lia|]. rewrite zlen_app, K, IH. lia.
Qed.
Lemma concat_len : forall A (g : A -> list Z) l k, (forall y, zlen (g y) = k) -> zlen (concat (map g l)) = k * zlen l.
Proof. intros A g l k K. induction l as [|y l IH]; cbn [map concat]; [unfold zlen; cbn; lia|]. rewrite zlen_app, K, IH, zlen_cons. lia. Qed.

Definition names_of (symbols : list (list Z * Z)) : list Z := concat (map (fun s => fst s ++ [0]) symbols).

Lemma string_list_ok : forall symbols fuel f it, Forall (fun s => Forall (fun c => c <> 0) (fst s) /\ zlen (fst s) < 2 ^ 32) symbols ->
  at_ f it (names_of symbols) -> zlen (names_of symbols) < Z.of_nat fuel ->
  string_list fuel f it (it + zlen (names_of symbols)) = Done (map fst symbols).
Proof.
  induction symbols as [|[n k] ss IH]; intros fuel f it N A F; (destruct fuel as [|fuel]; [unfold zlen in F; lia|]); cbn [string_list].
  - replace (it <? it + zlen (names_of [])) with false by (unfold zlen; cbn; lia). reflexivity.
  - assert (E : names_of ((n, k) :: ss) = (n ++ [0]) ++ names_of ss) by reflexivity. rewrite E in *.
    inversion N as [|? ? [N1 N2] N3]; subst. cbn [fst] in *.
    pose proof (zlen_nonneg _ n). pose proof (zlen_nonneg _ (names_of ss)).
    assert (L : zlen ((n ++ [0]) ++ names_of ss) = zlen n + 1 + zlen (names_of ss)) by (rewrite !zlen_app; unfold zlen; cbn; lia).
    rewrite L in *. replace (it <? it + (zlen n + 1 + zlen (names_of ss))) with true by lia.
    pose proof (at_end _ _ _ A) as [A0 _].
    assert (C : cstring_at f it = Done n).
    { unfold cstring_at. replace (it <? 0) with false by lia. destruct (at_skipn _ _ _ A) as [r ->]. rewrite <- !app_assoc. cbn [app].
      rewrite zero_term_app by auto. cbn. rewrite wrapu_id by lia. unfold zlen. rewrite Nat2Z.id, firstn_all. reflexivity. }
    rewrite C. cbn [obind map fst].
    replace (it + (zlen n + 1 + zlen (names_of ss))) with (it + zlen n + 1 + zlen (names_of ss)) by lia.
    rewrite IH; [reflexivity|exact N3| |lia].
    replace (it + zlen n + 1) with (it + zlen (n ++ [0])) by (rewrite zlen_app; unfold zlen; cbn; lia). eapply at_post; exact A.
Qed.

Section Archive.
Variables (h1 first h2 members : list Z) (offsets : list Z) (symbols : list (list Z * Z)).
Let index := symbol_index offsets symbols.
Let f := archive h1 first h2 index members.
Hypothesis H1 : header h1 [47] (zlen first).
Hypothesis H2 : header h2 [47] (zlen index).
Hypothesis HM : members = [] \/ exists h name data rest, members = h ++ data ++ rest /\ header h name (zlen data).
Hypothesis HB : Forall byte f.
Hypothesis HO : Forall (fun o => 0 <= o < 2 ^ 32) offsets.
Hypothesis HS : Forall (fun s => Forall (fun c => c <> 0) (fst s) /\ 0 <= snd s < 65536) symbols.
Hypothesis HF : zlen f < 2 ^ 32.
Hypothesis HN : symbols <> [].

Let base := 8 + zlen (h1 ++ first ++ pad first) + 60.

Lemma arch_len : zlen f = 8 + zlen (h1 ++ first ++ pad first) + zlen (h2 ++ index ++ pad index) + zlen members.
Proof. unfold f, archive. rewrite !zlen_app. unfold zlen; cbn [length]. lia. Qed.

Lemma at1 : at_ f 8 (h1 ++ first).
Proof.
  exists [33; 60; 97; 114; 99; 104; 62; 10], (pad first ++ h2 ++ index ++ pad index ++ members). split; auto.
  unfold f, archive. rewrite <- !app_assoc. reflexivity.
Qed.
Lemma at2 : at_ f (8 + zlen (h1 ++ first ++ pad first)) (h2 ++ index).
Proof.
  exists ([33; 60; 97; 114; 99; 104; 62; 10] ++ h1 ++ first ++ pad first), (pad index ++ members). split.
  - unfold f, archive. rewrite <- !app_assoc. reflexivity.
  - unfold zlen. rewrite !app_length. cbn [length]. lia.
Qed.
Lemma at3 : at_ f (8 + zlen (h1 ++ first ++ pad first) + zlen (h2 ++ index ++ pad index)) members.
Proof.
  exists ([33; 60; 97; 114; 99; 104; 62; 10] ++ h1 ++ first ++ pad first ++ h2 ++ index ++ pad index), []. split.
  - unfold f, archive. rewrite <- !app_assoc, app_nil_r. reflexivity.
  - unfold zlen. rewrite !app_length. cbn [length]. lia.
Qed.
Lemma at_index : at_ f base index.
Proof. unfold base. rewrite <- (header_len _ _ _ H2). apply at_post. exact at2. Qed.

Lemma sections_ok : sections 3 f 0 8 None = Done (Some (base, zlen index)).
Proof.
  rewrite (step_section 2 f 0 8 None h1 [47] first at1 H1). cbn [Z.eqb andb].
  assert (SN : string_strip_whitespace ([47] ++ repeat 32 (16 - length [47])) = [47]) by (vm_compute; reflexivity).
  rewrite SN. cbn [list_eq_dec]. destruct (list_eq_dec Z.eq_dec [47] [47]) as [_|]; [|congruence].
  rewrite (step_section 1 f (0 + 1) _ None h2 [47] index at2 H2). change (0 + 1) with 1. cbn [Z.eqb Pos.eqb andb]. rewrite SN.
  destruct (list_eq_dec Z.eq_dec [47] [47]) as [_|]; [|congruence].
  fold base.
  pose proof at3 as A3. destruct HM as [E|(h & name & data & rest & E & H)].
  - cbn [sections]. match goal with |- context[?a + 60 <=? zlen f] => set (w := a) end.
    pose proof arch_len as AL. rewrite E in AL. change (zlen []) with 0 in AL.
    replace (w + 60 <=? zlen f) with false; auto. symmetry. apply Z.leb_gt. unfold w. lia.
  - rewrite E in A3. rewrite (app_assoc h data rest) in A3. apply at_pre in A3.
    rewrite (step_section 0 f _ _ _ h name data A3 H). reflexivity.
Qed.

Let no := zlen offsets.
Let ns := zlen symbols.

Lemma index_len : zlen index = 4 + 4 * no + 4 + 2 * ns + zlen (names_of symbols).
Proof.
  unfold index, symbol_index. rewrite !zlen_app.
  rewrite (concat_len _ u32le offsets 4), (concat_len _ (fun s => u16le (snd s)) symbols 2) by reflexivity.
  fold (names_of symbols). unfold no, ns. change (zlen (u32le (Z.of_nat (length offsets)))) with 4.
  change (zlen (u32le (Z.of_nat (length symbols)))) with 4. lia.
Qed.

Lemma names_last : exists l, names_of symbols = l ++ [0].
Proof.
  destruct (exists_last HN) as (l & [n k] & E). exists (names_of l ++ n). rewrite E. unfold names_of.
  rewrite map_app, concat_app. cbn. rewrite app_nil_r, app_assoc. reflexivity.
Qed.

Lemma counts : 0 <= no < 2 ^ 32 /\ 0 < ns < 2 ^ 32 /\ Forall (fun s : list Z * Z => zlen (fst s) < 2 ^ 32) symbols.
Proof.
  pose proof arch_len as AL. rewrite !zlen_app in AL.
  pose proof (zlen_nonneg _ h1). pose proof (zlen_nonneg _ h2). pose proof (zlen_nonneg _ first). pose proof (zlen_nonneg _ (pad first)).
  pose proof (zlen_nonneg _ (pad index)). pose proof (zlen_nonneg _ members). pose proof (zlen_nonneg _ (names_of symbols)).
  pose proof index_len. pose proof (zlen_nonneg _ offsets) as O. fold no in O.
  assert (0 < ns) by (unfold ns, zlen; destruct symbols; [congruence|cbn [length]; lia]).
  split; [lia|]. split; [lia|].
  assert (G : forall l : list (list Z * Z), zlen (names_of l) < 2 ^ 32 -> Forall (fun s => zlen (fst s) < 2 ^ 32) l).
  { induction l as [|[n k] l IH]; intros L; constructor.
    - cbn [fst]. unfold names_of in L. cbn [map concat fst] in L. rewrite !zlen_app in L.
      pose proof (zlen_nonneg _ (concat (map (fun s => fst s ++ [0]) l))). unfold zlen in L at 2. cbn [length] in L. lia.
    - apply IH. unfold names_of in *. cbn [map concat fst] in L. rewrite !zlen_app in L. pose proof (zlen_nonneg _ n).
      unfold zlen in L at 2. cbn [length] in L. lia. }
  apply G. lia.
Qed.

Definition the_library : library_node :=
  {| lib_file := f; amount_of_members := no; member_offsets := base + 4; amount_of_symbols := ns;
     symbol_member_indices := base + 4 + 4 * no + 4; import_symbol_string_table := map fst symbols |}.

Lemma base_nonneg : 0 <= base.
Proof. unfold base. pose proof (zlen_nonneg _ (h1 ++ first ++ pad first)). lia. Qed.

Lemma read_int_at : forall o l n, at_ f o l -> n = zlen l -> read_int f o n = Done (little_endian l).
Proof. intros. unfold read_int. rewrite (read_at' f o n l); auto. Qed.

Lemma at_members : at_ f base (u32le no).
Proof. eapply at_pre. exact at_index. Qed.
Lemma at_offsets : at_ f (base + 4) (concat (map u32le offsets)).
Proof. change 4 with (zlen (u32le no)). eapply at_sub. exact at_index. Qed.
Lemma at_symbols : at_ f (base + 4 + 4 * no) (u32le ns).
Proof.
  replace (base + 4 + 4 * no) with (base + zlen (u32le no ++ concat (map u32le offsets))).
  2:{ rewrite zlen_app, (concat_len _ u32le offsets 4) by reflexivity. fold no. change (zlen (u32le no)) with 4. lia. }
  eapply at_sub. rewrite <- app_assoc. exact at_index.
Qed.
Lemma at_indices : at_ f (base + 4 + 4 * no + 4) (concat (map (fun s => u16le (snd s)) symbols)).
Proof.
  replace (base + 4 + 4 * no + 4) with (base + zlen (u32le no ++ concat (map u32le offsets) ++ u32le ns)).
  2:{ rewrite !zlen_app, (concat_len _ u32le offsets 4) by reflexivity. fold no. change (zlen (u32le no)) with 4. change (zlen (u32le ns)) with 4. lia. }
  eapply at_sub. rewrite <- !app_assoc. exact at_index.
Qed.
Lemma at_names : at_ f (base + 4 + 4 * no + 4 + 2 * ns) (names_of symbols).
Proof.
  replace (base + 4 + 4 * no + 4 + 2 * ns) with (base + zlen (u32le no ++ concat (map u32le offsets) ++ u32le ns ++ concat (map (fun s => u16le (snd s)) symbols))).
  2:{ rewrite !zlen_app, (concat_len _ u32le offsets 4), (concat_len _ (fun s => u16le (snd s)) symbols 2) by reflexivity. fold no. fold ns. change (zlen (u32le no)) with 4. change (zlen (u32le ns)) with 4. lia. }
  apply at_post. rewrite <- !app_assoc. exact at_index.
Qed.

Lemma parse_archive : ar_parse_file f = Done (Some the_library).
Proof.
  unfold ar_parse_file. pose proof arch_len as AL. rewrite !zlen_app in AL.
  pose proof (zlen_nonneg _ h1). pose proof (header_len _ _ _ H2) as L2. pose proof (zlen_nonneg _ first). pose proof (zlen_nonneg _ (pad first)).
  pose proof (zlen_nonneg _ (pad index)). pose proof (zlen_nonneg _ members). pose proof (zlen_nonneg _ (names_of symbols)).
  pose proof index_len as IL. destruct counts as (C1 & C2 & C3).
  replace (zlen f <? 8) with false by lia.
  rewrite (read_at' f 0 8 [33; 60; 97; 114; 99; 104; 62; 10]); auto.
  2:{ exists [], (h1 ++ first ++ pad first ++ h2 ++ index ++ pad index ++ members). auto. }
  cbn [obind]. destruct (list_eq_dec Z.eq_dec [33; 60; 97; 114; 99; 104; 62; 10] [33; 60; 97; 114; 99; 104; 62; 10]) as [_|]; [|congruence].
  replace (zlen f =? 8) with false by lia.
  rewrite sections_ok. cbn [obind].
  replace (zlen index <? 4) with false by lia.
  destruct names_last as [nl EL].
  assert (LAST : read_int f (base + zlen index - 1) 1 = Done 0).
  { rewrite (read_int_at _ [0] 1); auto. pose proof at_names as AN. rewrite EL in AN. apply at_post in AN.
    replace (base + zlen index - 1) with (base + 4 + 4 * no + 4 + 2 * ns + zlen nl); auto.
    rewrite IL, EL, zlen_app. change (zlen [0]) with 1. lia. }
  rewrite LAST. cbn [obind Z.eqb negb].
  rewrite (read_int_at _ _ 4 at_members) by reflexivity. rewrite le_u32 by lia. cbn [obind].
  replace (base + 4 + 4 * no + 4 >? base + zlen index) with false by lia.
  rewrite (read_int_at _ _ 4 at_symbols) by reflexivity. rewrite le_u32 by lia. cbn [obind].
  replace (ns =? 0) with false by lia. cbn [obind Z.eqb negb].
  assert (0 < zlen (names_of symbols)) by (rewrite EL, zlen_app; pose proof (zlen_nonneg _ nl); change (zlen [0]) with 1; lia).
  replace ((base + 4 + 4 * no + 4 + 2 * ns >=? base + zlen index) || false) with false by lia.
  replace (base + zlen index) with (base + 4 + 4 * no + 4 + 2 * ns + zlen (names_of symbols)) by lia.
  rewrite (string_list_ok symbols); [|clear -HS C3; rewrite Forall_forall in *; intros s I; specialize (HS s I); specialize (C3 s I); tauto|exact at_names|lia].
  cbn [obind]. assert (ML : zlen (map fst symbols) = ns) by (unfold ns, zlen; rewrite map_length; auto). rewrite ML.
  rewrite Z.eqb_refl. cbn [negb]. replace (ns =? 0) with false by lia. reflexivity.
Qed.

(** What a lookup gives for the member at [off]. *)
Inductive member_at (off : Z) (identifier : list Z) : ar_symbol_lookup -> Prop :=
| member_object : forall h name data, at_ f off (h ++ data) -> header h name (zlen data) -> 20 <= zlen data ->
    firstn 4 data <> [0; 0; 255; 255] -> member_at off identifier (object_file (off + 60) (zlen data))
(* an import: 20 bytes of header, the name of the symbol, the name of the dll *)
| member_import : forall h name rest dll, let data := [0; 0; 255; 255] ++ rest ++ identifier ++ [0] ++ dll ++ [0] in
    length rest = 16%nat -> at_ f off (h ++ data) -> header h name (zlen data) ->
    member_at off identifier (import_header (off + 60) (zlen data)).

Hypothesis SORTED : in_order (map fst symbols).

Lemma lookup_present : forall identifier k off r, In (identifier, k) symbols -> 1 <= k <= no ->
  nth_error offsets (Z.to_nat (k - 1)) = Some off -> member_at off identifier r ->
  ar_lookup_symbol the_library identifier = Done r.
Proof.
  intros id k off r I K NO M. unfold ar_lookup_symbol. cbn [import_symbol_string_table the_library lib_file].
  apply In_nth_error in I. destruct I as [i I].
  assert (LI : (i < length symbols)%nat) by (apply nth_error_Some; congruence).
  assert (ML : length (map fst symbols) = length symbols) by (apply map_length).
  rewrite (search_complete _ _ _ 0 _ (Z.of_nat i)); auto; try (unfold zlen; lia).
  2:{ rewrite Nat2Z.id, nth_error_map, I. reflexivity. }
  cbn [obind the_library amount_of_symbols symbol_member_indices amount_of_members member_offsets].
  replace (Z.of_nat i =? -1) with false by lia. rewrite Z.geb_leb.
  replace (ns <=? Z.of_nat i) with false by (unfold ns, zlen; lia).
  destruct (concat_nth _ (fun s : list Z * Z => u16le (snd s)) symbols i (id, k) 2 (fun _ => eq_refl) I) as (a & b & E & L).
  pose proof at_indices as AI. rewrite E in AI. apply at_sub in AI. rewrite L in AI.
  assert (KB : 0 <= k < 65536) by (rewrite Forall_forall in HS; apply (HS (id, k)); eapply nth_error_In; eauto).
  rewrite (read_int_at _ _ 2 AI) by reflexivity. cbn [snd]. rewrite le_u16 by lia. cbn [obind].
  replace ((k =? 0) || (k >? no)) with false by lia.
  destruct (concat_nth _ u32le offsets _ off 4 (fun _ => eq_refl) NO) as (a' & b' & E' & L').
  pose proof at_offsets as AO. rewrite E' in AO. apply at_sub in AO. rewrite L', Z2Nat.id in AO by lia.
  rewrite (read_int_at _ _ 4 AO) by reflexivity.
  assert (OB : 0 <= off < 2 ^ 32) by (rewrite Forall_forall in HO; apply HO; eapply nth_error_In; eauto).
  rewrite le_u32 by lia. cbn [obind].
  assert (MM : exists h name data, at_ f off (h ++ data) /\ header h name (zlen data) /\ 20 <= zlen data).
  { inversion M; subst; eauto 10. exists h, name, data. repeat split; auto. unfold data. rewrite !zlen_app. pose proof (zlen_nonneg _ id). pose proof (zlen_nonneg _ dll).
    unfold zlen at 2. rewrite H. change (zlen [0]) with 1. change (zlen [0; 0; 255; 255]) with 4. lia. }
  destruct MM as (h & name & data & A & H & S).
  pose proof (at_end _ _ _ A) as [_ AE]. rewrite zlen_app, (header_len _ _ _ H) in AE.
  replace (off + 60 >? zlen f) with false by lia.
  destruct (header_reads f off h name _ (at_pre _ _ _ _ A) H) as [_ (sb & -> & U)]. cbn [obind]. rewrite U.
  replace ((zlen data >? zlen f) || (off + zlen data >? zlen f)) with false by lia.
  replace (zlen data <? 20) with false by lia.
  pose proof A as AD. apply at_post in AD. rewrite (header_len _ _ _ H) in AD.
  destruct data as [|d0 [|d1 [|d2 [|d3 data]]]]; try (unfold zlen in S; cbn in S; lia).
  assert (A1 : at_ f (off + 60) [d0; d1]) by (eapply (at_pre _ _ [d0; d1]); exact AD).
  assert (A2 : at_ f (off + 60 + 2) [d2; d3]) by (change 2 with (zlen [d0; d1]); eapply at_sub with (y := data); exact AD).
  rewrite (read_int_at _ _ 2 A1), (read_int_at _ _ 2 A2) by reflexivity. cbn [obind little_endian].
  assert (BB : Forall byte [d0; d1; d2; d3]).
  { destruct AD as (xa & xb & EF & _). pose proof HB as HB'. rewrite EF in HB'. clear -HB'. apply Forall_app in HB'. destruct HB' as [_ G]. apply Forall_app in G.
    destruct G as [G _]. inversion G as [|? ? ? G1]; subst. inversion G1 as [|? ? ? G2]; subst. inversion G2 as [|? ? ? G3]; subst. inversion G3; subst. repeat (apply Forall_cons; [assumption|]); apply Forall_nil. }
  assert (B' : byte d0 /\ byte d1 /\ byte d2 /\ byte d3) by (inversion BB as [|? ? ? B1]; inversion B1 as [|? ? ? B2]; inversion B2 as [|? ? ? B3]; inversion B3; auto).
  unfold byte in B'.
  assert (SAME : forall h' name' data', at_ f off (h' ++ data') -> header h' name' (zlen data') ->
     data' = d0 :: d1 :: d2 :: d3 :: data).
  { intros h' name' data' A' H'.
    destruct (header_reads f off h' name' _ (at_pre _ _ _ _ A') H') as [_ (sb' & R' & U')].
    destruct (header_reads f off h name _ (at_pre _ _ _ _ A) H) as [_ (sb2 & R2 & U2)].
    assert (ZL : zlen data' = zlen (d0 :: d1 :: d2 :: d3 :: data)) by congruence.
    apply at_post in A'. rewrite (header_len _ _ _ H') in A'.
    pose proof (read_at' _ _ _ _ A' eq_refl) as X. pose proof (read_at' _ _ _ _ AD eq_refl) as Y. rewrite ZL in X. congruence. }
  inversion M as [h' name' data' A' H' S' NS|h' name' rest dll data' LR A' H']; subst r.
  - rewrite (SAME _ _ _ A' H') in *. cbn [firstn] in NS.
    destruct ((d0 + 256 * (d1 + 256 * 0) =? 0) && (d2 + 256 * (d3 + 256 * 0) =? 65535)) eqn:SG; [|reflexivity].
    exfalso. apply NS. assert (d0 = 0 /\ d1 = 0 /\ d2 = 255 /\ d3 = 255) as (-> & -> & -> & ->) by lia. reflexivity.
  - pose proof (SAME _ _ _ A' H') as SD. rewrite <- SD in *. unfold data' in SD. cbn [app] in SD. injection SD as <- <- <- <- _.
    change ((0 + 256 * (0 + 256 * 0) =? 0) && (255 + 256 * (255 + 256 * 0) =? 65535)) with true. cbv iota.
    assert (ZD : zlen data' = 20 + zlen id + 2 + zlen dll).
    { unfold data'. rewrite !zlen_app. unfold zlen at 2. rewrite LR. change (zlen [0]) with 1. change (zlen [0; 0; 255; 255]) with 4. lia. }
    pose proof (zlen_nonneg _ dll).
    replace (zlen data' <=? 20 + zlen id + 1) with false by lia.
    assert (AL : at_ f (off + 60 + zlen data' - 1) [0]).
    { unfold data' in AD. rewrite !app_assoc in AD. apply at_post in AD.
      replace (off + 60 + zlen data' - 1) with (off + 60 + zlen (((([0; 0; 255; 255] ++ rest) ++ id) ++ [0]) ++ dll)); auto.
      unfold data'. rewrite !zlen_app. change (zlen [0]) with 1. lia. }
    rewrite (read_int_at _ _ 1 AL) by reflexivity. reflexivity.
Qed.

Lemma lookup_absent : forall identifier, ~ In identifier (map fst symbols) -> ar_lookup_symbol the_library identifier = Done lookup_failed.
Proof.
  intros id NI. unfold ar_lookup_symbol. cbn [import_symbol_string_table the_library lib_file].
  assert (ML : length (map fst symbols) = length symbols) by (apply map_length).
  destruct (search_safe (S (length (map fst symbols))) (map fst symbols) id 0 (zlen (map fst symbols) - 1)) as (r & -> & R); try lia; [unfold zlen; lia|]. cbn [obind].
  destruct R as [->|[_ R]]; [reflexivity|]. exfalso. apply NI. eapply nth_error_In; eauto.
Qed.

End Archive.
