From Verif Require Import Base ArModel ArProofs Md5Proofs MsfModel MsfSpec.
Ltac Zify.zify_post_hook ::= Z.to_euclidean_division_equations.

Lemma len_zlen : forall l, len l = zlen l.
Proof. reflexivity. Qed.
Lemma zlen_zfirst : forall A n (l : list A), 0 <= n <= zlen l -> zlen (zfirst n l) = n.
Proof. intros. unfold zfirst, zlen in *. rewrite firstn_length. lia. Qed.
Lemma zlen_zskip : forall A n (l : list A), 0 <= n <= zlen l -> zlen (zskip n l) = zlen l - n.
Proof. intros. unfold zskip, zlen in *. rewrite skipn_length. lia. Qed.
Lemma zlen_fill : forall v n, 0 <= n -> zlen (fill v n) = n.
Proof. intros. unfold fill, zlen. rewrite repeat_length. lia. Qed.
Lemma zfirst_app : forall A (a b : list A) n, zlen a = n -> zfirst n (a ++ b) = a.
Proof. intros. unfold zfirst, zlen in *. replace (Z.to_nat n) with (length a + 0)%nat by lia. rewrite firstn_app_2. apply app_nil_r. Qed.
Lemma zskip_app : forall A (a b : list A) n, zlen a = n -> zskip n (a ++ b) = b.
Proof. intros. unfold zskip, zlen in *. rewrite skipn_app, skipn_all2 by lia. replace (Z.to_nat n - length a)%nat with 0%nat by lia. reflexivity. Qed.
Lemma zfirst_all : forall A (a : list A) n, zlen a <= n -> zfirst n a = a.
Proof. intros. unfold zfirst, zlen in *. apply firstn_all2. lia. Qed.
Lemma zskip_zskip : forall A (l : list A) a b, 0 <= a -> 0 <= b -> zskip a (zskip b l) = zskip (b + a) l.
Proof. intros. unfold zskip. rewrite skipn_skipn'. f_equal. lia. Qed.
Lemma zfirst_split : forall A (l : list A) a b, 0 <= a -> 0 <= b -> zfirst (a + b) l = zfirst a l ++ zfirst b (zskip a l).
Proof.
  intros. unfold zfirst, zskip. replace (Z.to_nat (a + b)) with (Z.to_nat a + Z.to_nat b)%nat by lia.
  generalize (Z.to_nat a) (Z.to_nat b) l. clear. induction n; intros; [reflexivity|].
  destruct l; cbn [Nat.add firstn skipn app]; [rewrite firstn_nil; reflexivity|]. f_equal. apply IHn.
Qed.
Lemma zskip_0 : forall A (l : list A), zskip 0 l = l.
Proof. reflexivity. Qed.
Lemma zskip_app_l : forall A (a b : list A) n, 0 <= n <= zlen a -> zskip n (a ++ b) = zskip n a ++ b.
Proof.
  intros. unfold zskip, zlen in *. rewrite skipn_app. replace (Z.to_nat n - length a)%nat with 0%nat by lia. reflexivity.
Qed.
Lemma zskip_app_r : forall A (a b : list A) n, zlen a <= n -> zskip n (a ++ b) = zskip (n - zlen a) b.
Proof.
  intros. unfold zskip, zlen in *. rewrite skipn_app, skipn_all2 by lia. cbn [app]. f_equal. lia.
Qed.
Lemma zfirst_app_l : forall A (a b : list A) n, 0 <= n <= zlen a -> zfirst n (a ++ b) = zfirst n a.
Proof.
  intros. unfold zfirst, zlen in *. rewrite firstn_app. replace (Z.to_nat n - length a)%nat with 0%nat by lia.
  cbn [firstn]. apply app_nil_r.
Qed.

(** Pages *)
Lemma page_z : forall f p, page f p = zfirst 4096 (zskip (4096 * p) f).
Proof. reflexivity. Qed.
Lemma page_app_l : forall f g p, 0 <= p -> 4096 * (p + 1) <= zlen f -> page (f ++ g) p = page f p.
Proof.
  intros. rewrite !page_z, zskip_app_l by lia. apply zfirst_app_l. rewrite zlen_zskip; lia.
Qed.
Lemma page_app_r : forall f g p, zlen f <= 4096 * p -> page (f ++ g) p = zfirst 4096 (zskip (4096 * p - zlen f) g).
Proof. intros. rewrite page_z, zskip_app_r by lia. reflexivity. Qed.
Lemma zlen_page : forall f p, 0 <= p -> 4096 * (p + 1) <= zlen f -> zlen (page f p) = 4096.
Proof. intros. rewrite page_z, zlen_zfirst; [reflexivity|]. rewrite zlen_zskip; lia. Qed.

Definition pg (n : Z) : Z := 3 + n + 2 * (n / 4094).
Definition q (n : Z) : Z := 1 + n + 2 * ((n + 4093) / 4094).
Definition zseq (a n : Z) : list Z := map (fun i => a + Z.of_nat i) (seq 0 (Z.to_nat n)).

Lemma zseq_S : forall a n, 0 <= n -> zseq a (n + 1) = zseq a n ++ [a + n].
Proof.
  intros. unfold zseq. replace (Z.to_nat (n + 1)) with (S (Z.to_nat n)) by lia. rewrite seq_S, map_app. cbn [map Nat.add].
  do 2 f_equal. lia.
Qed.
Lemma zseq_0 : forall a n, n <= 0 -> zseq a n = [].
Proof. intros. unfold zseq. replace (Z.to_nat n) with 0%nat by lia. reflexivity. Qed.
Lemma zseq_app : forall a n m, 0 <= n -> 0 <= m -> zseq a (n + m) = zseq a n ++ zseq (a + n) m.
Proof.
  intros a n m Hn Hm. pattern m. apply natlike_ind; auto.
  - rewrite Z.add_0_r, (zseq_0 _ 0), app_nil_r by lia. reflexivity.
  - intros x Hx IH. unfold Z.succ. rewrite Z.add_assoc, !zseq_S, IH by lia. rewrite <- app_assoc. do 3 f_equal. lia.
Qed.
Lemma zlen_zseq : forall a n, 0 <= n -> zlen (zseq a n) = n.
Proof. intros. unfold zseq, zlen. rewrite map_length, seq_length. lia. Qed.
Lemma in_zseq : forall a n x, In x (zseq a n) -> a <= x < a + n.
Proof. intros a n x. unfold zseq. rewrite in_map_iff. intros [i [<- Hi]]. apply in_seq in Hi. lia. Qed.
Lemma zlen_map : forall A B (f : A -> B) l, zlen (map f l) = zlen l.
Proof. intros. unfold zlen. rewrite map_length. reflexivity. Qed.

Lemma is_fpm_mod : forall p, is_free_page_map p = ((p mod 4096 =? 1) || (p mod 4096 =? 2)).
Proof. intros. unfold is_free_page_map. change 0xfff with (Z.ones 12). rewrite Z.land_ones by lia. reflexivity. Qed.

Lemma pages_between_z : forall a b, pages_between a b = filter (fun p => negb (is_free_page_map p)) (zseq a (b - a)).
Proof. reflexivity. Qed.

Lemma pg_S : forall y, 0 <= y -> (pg (y + 1) = pg y + 1 /\ (y + 1) mod 4094 <> 0) \/
   (pg (y + 1) = pg y + 3 /\ (pg y + 1) mod 4096 = 1 /\ (y + 1) mod 4094 = 0).
Proof. intros. unfold pg. lia. Qed.
Lemma pg_data : forall y, 0 <= y -> is_free_page_map (pg y) = false.
Proof. intros. rewrite is_fpm_mod. unfold pg. lia. Qed.
Lemma pg_mono : forall x y, 0 <= x <= y -> pg x + (y - x) <= pg y.
Proof. intros. unfold pg. lia. Qed.

Lemma pages_pg_n : forall n x, 0 <= x -> 0 <= n -> pages_between (pg x) (pg (x + n)) = map pg (zseq x n).
Proof.
  intros n x Hx Hn. pattern n. apply natlike_ind; auto.
  - rewrite Z.add_0_r, pages_between_z, !zseq_0 by lia. reflexivity.
  - intros m Hm IH. unfold Z.succ. rewrite zseq_S, map_app, <- IH by lia. rewrite !pages_between_z.
    pose proof (pg_mono x (x + m) ltac:(lia)). pose proof (pg_data (x + m) ltac:(lia)) as Hd.
    rewrite Z.add_assoc. destruct (pg_S (x + m)) as [[E _]|[E [M _]]]; [lia| |]; rewrite E.
    + replace (pg (x + m) + 1 - pg x) with (pg (x + m) - pg x + 1) by lia. rewrite zseq_S by lia.
      rewrite filter_app. f_equal. cbn [filter map]. replace (pg x + (pg (x + m) - pg x)) with (pg (x + m)) by lia. rewrite Hd. reflexivity.
    + replace (pg (x + m) + 3 - pg x) with (pg (x + m) - pg x + 1 + 1 + 1) by lia. rewrite !zseq_S by lia.
      rewrite !filter_app. rewrite <- !app_assoc. f_equal. cbn [filter map app].
      replace (pg x + (pg (x + m) - pg x)) with (pg (x + m)) by lia. rewrite Hd. cbn [negb].
      rewrite !is_fpm_mod.
      replace ((pg x + (pg (x + m) - pg x + 1)) mod 4096) with 1 by lia.
      replace ((pg x + (pg (x + m) - pg x + 1 + 1)) mod 4096) with 2 by lia. reflexivity.
Qed.
Lemma pages_pg : forall x y, 0 <= x <= y -> pages_between (pg x) (pg y) = map pg (zseq x (y - x)).
Proof. intros. rewrite <- pages_pg_n by lia. do 2 f_equal. lia. Qed.
Lemma pages_pg_q : forall x y, 0 <= x <= y -> pages_between (pg x) (q y) = map pg (zseq x (y - x)).
Proof.
  intros x y H. rewrite <- pages_pg by lia. rewrite !pages_between_z.
  destruct (Z.eq_dec (y mod 4094) 0) as [E|E].
  - assert (pg y = q y + 2) by (unfold pg, q; lia). assert (q y mod 4096 = 1) by (unfold q; lia).
    destruct (Z.eq_dec x y) as [->|N]; [rewrite !zseq_0 by lia; reflexivity|].
    assert (pg x <= q y) by (unfold pg, q in *; lia).
    replace (pg y - pg x) with (q y - pg x + 1 + 1) by lia. rewrite !zseq_S by lia. rewrite !filter_app.
    cbn [filter]. rewrite !is_fpm_mod.
    replace ((pg x + (q y - pg x)) mod 4096) with 1 by lia.
    replace ((pg x + (q y - pg x + 1)) mod 4096) with 2 by lia. cbn [Z.eqb orb negb Pos.eqb app]. rewrite !app_nil_r. reflexivity.
  - assert (pg y = q y) by (unfold pg, q; lia). congruence.
Qed.

(** Words *)
Lemma words_bytes : forall l rest, Forall (fun x => 0 <= x < 2 ^ 32) l -> words (length l) (bytes_u32s l ++ rest) = Some l.
Proof.
  induction l as [|x l]; intros rest H; [reflexivity|]. inversion H; subst.
  unfold bytes_u32s. cbn [map concat bytes_u32 length app words]. fold (bytes_u32s l). rewrite IHl by assumption. do 2 f_equal.
  change (2 ^ 32) with 4294967296 in *. clear - H2. lia.
Qed.
Lemma words_n : forall n l rest, zlen l = n -> Forall (fun x => 0 <= x < 2 ^ 32) l -> words (Z.to_nat n) (bytes_u32s l ++ rest) = Some l.
Proof. intros. replace (Z.to_nat n) with (length l) by (unfold zlen in *; lia). apply words_bytes. assumption. Qed.
Lemma zlen_bytes : forall l, zlen (bytes_u32s l) = 4 * zlen l.
Proof. intros. apply concat_len. reflexivity. Qed.

(** The write loop *)
Definition maps (n : Z) : Z := (n + 4093) / 4094.
Record inv (amount : Z) (hdr : list Z) (w : writer) (D : list Z) (n : Z) : Prop := {
  i_n : 0 <= n;
  i_len : zlen D = 4096 * n;
  i_file : zlen (file w) = 4096 * q n;
  i_off : write_offset w = 4096 * q n;
  i_next : next_free_page_maps w = 4096 * (1 + 4096 * maps n);
  i_hdr : page (file w) 0 = hdr;
  i_data : forall i, 0 <= i < n -> page (file w) (pg i) = zfirst 4096 (zskip (4096 * i) D);
  i_map : forall k, 0 <= k < maps n -> page (file w) (4096 * k + 1) = free_page_map amount k }.

Lemma zlen_set_bit : forall b x, zlen (set_bit b x) = zlen b.
Proof.
  intros. unfold set_bit, zlen. rewrite app_length. pose proof (firstn_length (Z.to_nat (x / 8)) b).
  pose proof (skipn_length (Z.to_nat (x / 8)) b). destruct (skipn (Z.to_nat (x / 8)) b); cbn [length] in *; lia.
Qed.
Lemma zlen_fpm : forall a k, zlen (free_page_map a k) = 4096.
Proof.
  intros. unfold free_page_map. destruct (_ <=? _); [apply zlen_fill; unfold ps; lia|].
  destruct (_ <? _); [apply zlen_fill; unfold ps; lia|].
  generalize (seq 0 (Z.to_nat ((k + 1) * 32768 - a))). intro l.
  assert (zlen (fill 0 ps) = 4096) as H by (apply zlen_fill; unfold ps; lia). revert H.
  generalize (fill 0 ps). induction l; intros b H; [exact H|]. cbn [fold_left]. apply IHl. rewrite zlen_set_bit. exact H.
Qed.

(** The state in the loop after the free page maps are written: ready to take data page [n]. *)
Record ready (amount : Z) (hdr : list Z) (w : writer) (D : list Z) (n : Z) : Prop := {
  r_n : 0 <= n;
  r_len : zlen D = 4096 * n;
  r_file : zlen (file w) = 4096 * pg n;
  r_off : write_offset w = 4096 * pg n;
  r_next : next_free_page_maps w = 4096 * (1 + 4096 * (n / 4094 + 1));
  r_hdr : page (file w) 0 = hdr;
  r_data : forall i, 0 <= i < n -> page (file w) (pg i) = zfirst 4096 (zskip (4096 * i) D);
  r_map : forall k, 0 <= k < n / 4094 + 1 -> page (file w) (4096 * k + 1) = free_page_map amount k }.

Definition with_map (amount : Z) (w : writer) : writer :=
  if write_offset w =? next_free_page_maps w
  then {| file := (file w ++ free_page_map amount ((next_free_page_maps w / 0x1000) / 0x1000)) ++ fill 0 0x1000;
          write_offset := write_offset w + 0x2000;
          next_free_page_maps := next_free_page_maps w + 0x1000 * 0x1000 |}
  else w.

Lemma pg_lt_q : forall i n, 0 <= i < n -> 3 <= pg i < q n.
Proof. intros. unfold pg, q. lia. Qed.

Lemma get_ready : forall amount hdr w D n, inv amount hdr w D n -> ready amount hdr (with_map amount w) D n.
Proof.
  intros amount hdr w D n [Hn Hl Hf Ho Hx Hh Hd Hm]. unfold with_map. rewrite Ho, Hx.
  destruct (Z.eqb_spec (4096 * q n) (4096 * (1 + 4096 * maps n))) as [E|E].
  - assert (n mod 4094 = 0 /\ q n + 2 = pg n /\ maps n = n / 4094 /\ q n = 4096 * (n / 4094) + 1) as [E1 [E2 [E3 E4]]] by (unfold q, maps, pg in *; lia).
    assert (4096 * (1 + 4096 * maps n) / 4096 / 4096 = n / 4094) as -> by lia.
    pose proof (zlen_fpm amount (n / 4094)) as Lf. pose proof (zlen_fill 0 4096 ltac:(lia)) as Lz.
    split; cbn [file write_offset next_free_page_maps]; rewrite <- ?app_assoc, ?zlen_app; try lia.
    + rewrite page_app_l; auto; unfold q; lia.
    + intros i Hi. pose proof (pg_lt_q i n Hi). rewrite page_app_l by lia. apply Hd, Hi.
    + intros k Hk. destruct (Z.eq_dec k (n / 4094)) as [->|N].
      * rewrite page_app_r by lia. rewrite Hf, <- E4, Z.sub_diag, zskip_0. apply zfirst_app, Lf.
      * rewrite page_app_l by lia. apply Hm. lia.
  - assert (n mod 4094 <> 0 /\ q n = pg n /\ maps n = n / 4094 + 1) as [E1 [E2 E3]] by (unfold q, maps, pg in *; lia).
    split; rewrite <- ?E2, <- ?E3; auto.
Qed.

Lemma append_data : forall amount hdr w D n X j, ready amount hdr w D n -> zlen X = 4096 * j -> 1 <= j -> 
  pg n + j <= 1 + 4096 * (n / 4094 + 1) ->
  inv amount hdr {| file := file w ++ X; write_offset := write_offset w + 4096 * j; next_free_page_maps := next_free_page_maps w |} (D ++ X) (n + j).
Proof.
  intros amount hdr w D n X j [Hn Hl Hf Ho Hx Hh Hd Hm] Lx Hj Hr.
  assert (maps (n + j) = n / 4094 + 1 /\ q (n + j) = pg n + j) as [E1 E2] by (unfold q, maps, pg in *; lia).
  split; cbn [file write_offset next_free_page_maps]; rewrite ?zlen_app, ?E1, ?E2; try lia.
  - rewrite page_app_l; auto; unfold pg in *; lia.
  - intros i Hi. destruct (Z_lt_le_dec i n) as [L|L].
    + pose proof (pg_mono i n ltac:(lia)). assert (0 <= pg i) by (unfold pg; lia). rewrite page_app_l by lia. rewrite Hd by lia.
      rewrite zskip_app_l, zfirst_app_l; auto; rewrite ?zlen_zskip; lia.
    + assert (pg i = pg n + (i - n)) as -> by (unfold pg in *; lia).
      rewrite page_app_r by lia. rewrite zskip_app_r by lia. do 2 f_equal. lia.
  - intros k Hk. assert (4096 * k + 1 < pg n) by (unfold pg; lia). rewrite page_app_l by lia. apply Hm. lia.
Qed.

Definition padded (s : list Z) : list Z := s ++ fill 0 (4096 * pages_for (zlen s) - zlen s).
Lemma zlen_padded : forall s, zlen (padded s) = 4096 * pages_for (zlen s).
Proof. intros. unfold padded. rewrite zlen_app, zlen_fill; pose proof (zlen_nonneg _ s); unfold pages_for; lia. Qed.

Lemma u32_small : forall x, 0 <= x < 2 ^ 32 -> u32 x = x.
Proof. intros. unfold u32, wrapu. apply Z.mod_small. assumption. Qed.

Lemma write_step : forall fuel amount s off w, off < zlen s -> 
  write_stream (S fuel) amount s off w =
  (let w := with_map amount w in
   let size_to_write := u32 (zlen s - off) in
   let size_to_write := if size_to_write >? next_free_page_maps w - write_offset w
                             then u32 (next_free_page_maps w - write_offset w) else size_to_write in
   let f := file w ++ zfirst size_to_write (zskip off s) in
   let size_to_zero := if negb (Z.land size_to_write 0xfff =? 0) then 0x1000 - Z.land size_to_write 0xfff else 0 in
   let f := f ++ fill 0 size_to_zero in
   let size_to_write := u32 (size_to_write + size_to_zero) in
   write_stream fuel amount s (u32 (off + size_to_write))
          {| file := f; write_offset := write_offset w + size_to_write; next_free_page_maps := next_free_page_maps w |}).
Proof. intros. cbn [write_stream]. destruct (Z.ltb_spec off (zlen s)); [reflexivity|lia]. Qed.

Lemma land_fff : forall x, Z.land x 0xfff = x mod 4096.
Proof. intros. change 0xfff with (Z.ones 12). apply Z.land_ones. lia. Qed.

Lemma write_stream_ok : forall amount hdr s D0 fuel o w n, zlen s <= 2 ^ 32 - 4096 -> 0 <= o -> 4096 * o < zlen s ->
  zlen s - 4096 * o < Z.of_nat fuel ->
  inv amount hdr w (D0 ++ zfirst (4096 * o) s) n ->
  exists w', write_stream fuel amount s (4096 * o) w = Done w' /\ inv amount hdr w' (D0 ++ padded s) (n + (pages_for (zlen s) - o)).
Proof.
  intros amount hdr s D0. induction fuel; intros o w n Hs Ho Hlt Hfuel I; [lia|].
  rewrite write_step by assumption. apply get_ready in I. cbv zeta. revert I. generalize (with_map amount w). clear w. intros w I.
  pose proof I as [Hn Hl Hf Hoff Hnx _ _ _].
  change (2 ^ 32) with 4294967296 in *.
  rewrite (u32_small (zlen s - 4096 * o)) by (change (2 ^ 32) with 4294967296; lia).
  set (room := next_free_page_maps w - write_offset w).
  assert (room = 4096 * (1 + 4096 * (n / 4094 + 1) - pg n)) as Hroom by (unfold room; lia).
  assert (4096 <= room <= 4096 * 4094) by (unfold pg in *; lia).
  rewrite (u32_small room) by (change (2 ^ 32) with 4294967296; lia).
  destruct (Z.gtb_spec (zlen s - 4096 * o) room) as [G|G].
  - (* fills the rest up to the next map *)
    clearbody room. set (j := 1 + 4096 * (n / 4094 + 1) - pg n) in *.
    assert (j = 4096 * (n / 4094 + 1) + 1 - pg n) as Hj by (unfold j; lia). clearbody j. subst room.
    rewrite land_fff. replace (4096 * j mod 4096) with 0 by lia. cbn [Z.eqb negb]. change (fill 0 0) with (@nil Z). rewrite app_nil_r, Z.add_0_r.
    rewrite (u32_small (4096 * j)) by (change (2 ^ 32) with 4294967296; lia).
    rewrite (u32_small (4096 * o + 4096 * j)) by (change (2 ^ 32) with 4294967296; lia).
    replace (4096 * o + 4096 * j) with (4096 * (o + j)) by lia.
    assert (inv amount hdr {| file := file w ++ zfirst (4096 * j) (zskip (4096 * o) s); write_offset := write_offset w + 4096 * j;
          next_free_page_maps := next_free_page_maps w |} ((D0 ++ zfirst (4096 * o) s) ++ zfirst (4096 * j) (zskip (4096 * o) s)) (n + j)) as I2.
    { apply append_data; auto; [|lia|lia]. rewrite zlen_zfirst; [lia|]. rewrite zlen_zskip; lia. }
    rewrite <- app_assoc, <- zfirst_split in I2 by lia. replace (4096 * o + 4096 * j) with (4096 * (o + j)) in I2 by lia.
    apply IHfuel in I2; [|lia|lia|lia|lia]. destruct I2 as [w' [E I2]]. exists w'. split; [exact E|].
    replace (n + (pages_for (zlen s) - o)) with (n + j + (pages_for (zlen s) - (o + j))) by lia. exact I2.
  - remember (zlen s - 4096 * o) as t eqn:Ht.
    set (z := if negb (Z.land t 0xfff =? 0) then 0x1000 - Z.land t 0xfff else 0).
    assert (z = 4096 * pages_for (zlen s) - zlen s) as Hz.
    { unfold z. rewrite land_fff. unfold pages_for. clear - Ht Hlt Ho. destruct (Z.eqb_spec (t mod 4096) 0); cbn [negb]; lia. }
    clearbody z.
    assert (0 <= z < 4096) by (unfold pages_for in *; lia).
    assert (t + z = 4096 * (pages_for (zlen s) - o)) as Etz by lia.
    assert (pages_for (zlen s) <= 1048575) by (unfold pages_for; lia).
    rewrite Etz.
    rewrite (u32_small (4096 * (pages_for (zlen s) - o))) by (change (2 ^ 32) with 4294967296; lia).
    rewrite (u32_small (_ + _)) by (change (2 ^ 32) with 4294967296; lia).
    rewrite (zfirst_all _ (zskip (4096 * o) s)) by (rewrite zlen_zskip; lia).
    destruct fuel as [|fuel]; [lia|]. cbn [write_stream].
    destruct (Z.ltb_spec (4096 * o + 4096 * (pages_for (zlen s) - o)) (zlen s)) as [B|_]; [lia|].
    eexists. split; [reflexivity|].
    assert (zfirst (4096 * o) s ++ zskip (4096 * o) s = s) as Es by (unfold zfirst, zskip; apply firstn_skipn).
    replace (D0 ++ padded s) with ((D0 ++ zfirst (4096 * o) s) ++ (zskip (4096 * o) s ++ fill 0 z)).
    2:{ unfold padded. rewrite <- Hz. rewrite <- !app_assoc. f_equal. rewrite app_assoc, Es. reflexivity. }
    rewrite <- app_assoc. apply append_data; auto; try lia.
    rewrite zlen_app, zlen_fill by lia. rewrite zlen_zskip by lia. lia.
Qed.

Lemma write_streams_ok : forall amount hdr ss D w n, Forall (fun s => zlen s <= 2 ^ 32 - 4096) ss ->
  inv amount hdr w D n ->
  exists w', write_streams amount ss w = Done w' /\
    inv amount hdr w' (D ++ concat (map padded ss)) (n + fold_right (fun s a => pages_for (zlen s) + a) 0 ss).
Proof.
  intros amount hdr. induction ss as [|s ss]; intros D w n H I.
  - exists w. split; [reflexivity|]. cbn [map concat fold_right]. rewrite app_nil_r, Z.add_0_r. exact I.
  - inversion H; subst. cbn [write_streams].
    assert (exists w', write_stream (S (length s)) amount s 0 w = Done w' /\ inv amount hdr w' (D ++ padded s) (n + pages_for (zlen s))) as [w1 [E1 I1]].
    { destruct (Z.eq_dec (zlen s) 0) as [E|E].
      - exists w. split. { cbn [write_stream]. rewrite E. reflexivity. }
        unfold padded. rewrite E. change (fill 0 _) with (@nil Z). destruct s; [|unfold zlen in E; cbn [length] in E; lia].
        cbn [app]. rewrite app_nil_r. change (pages_for 0) with 0. rewrite Z.add_0_r. exact I.
      - pose proof (zlen_nonneg _ s). destruct (write_stream_ok amount hdr s D (S (length s)) 0 w n) as [w1 [E1 I1]]; auto; try lia.
        { unfold zlen. lia. }
        { change (zfirst (4096 * 0) s) with (@nil Z). rewrite app_nil_r. exact I. }
        exists w1. split; [exact E1|]. rewrite Z.sub_0_r in I1. exact I1. }
    rewrite E1. cbn [obind]. destruct (IHss _ _ _ H3 I1) as [w2 [E2 I2]]. exists w2. split; [exact E2|].
    cbn [map concat fold_right]. rewrite app_assoc, Z.add_assoc. exact I2.
Qed.

(** Sizes *)
Definition sum_pages (ss : list (list Z)) : Z := fold_right (fun s a => pages_for (len s) + a) 0 ss.
Definition table_words (ss : list (list Z)) : Z := 2 + zlen ss + sum_pages ss.

Lemma sum_pages_nonneg : forall ss, 0 <= sum_pages ss.
Proof.
  induction ss as [|s ss]; [cbn; lia|]. change (sum_pages (s :: ss)) with (pages_for (len s) + sum_pages ss).
  pose proof (zlen_nonneg _ s). rewrite len_zlen. unfold pages_for. lia.
Qed.
Lemma align_page_ok : forall x, align_page x = 4096 * pages_for x.
Proof.
  intros. unfold align_page, pages_for. change (Z.ldiff (x + 4095) 4095) with (Z.ldiff (x + 4095) (Z.ones 12)).
  rewrite Z.ldiff_ones_r by lia. rewrite Z.shiftr_div_pow2, Z.shiftl_mul_pow2 by lia. change (2 ^ 12) with 4096. ring.
Qed.
Lemma stream_pages_ok : forall ss, stream_pages_size ss = 4096 * sum_pages ss.
Proof.
  induction ss as [|s ss]; [reflexivity|].
  change (stream_pages_size (s :: ss)) with (align_page (zlen s) + stream_pages_size ss).
  change (sum_pages (s :: ss)) with (pages_for (len s) + sum_pages ss).
  rewrite IHss, align_page_ok. change (len s) with (zlen s). lia.
Qed.

Section Sizes.
Variable ss : list (list Z).
Hypothesis few : zlen ss < 2 ^ 30.
Hypothesis fits : sum_pages ss < 2 ^ 31.
Let S_ := sum_pages ss.
Let W := 4 * table_words ss.
Let T := pages_for W.
Let L := pages_for (4 * T).

Lemma size_bounds : 0 <= S_ < 2147483648 /\ 8 <= W < 12884901888 + 16 /\ 1 <= T <= 3145729 /\ 1 <= L <= 3073 /\ zlen ss < 1073741824 /\ 0 <= zlen ss.
Proof.
  pose proof (sum_pages_nonneg ss). pose proof (zlen_nonneg _ ss). change (2 ^ 30) with 1073741824 in *. change (2 ^ 31) with 2147483648 in *.
  unfold L, T, W, S_, table_words, pages_for. lia.
Qed.
Lemma table_size_ok : table_size ss = W.
Proof.
  destruct size_bounds as [B1 [B2 [B3 [B4 [B5 B6]]]]]. unfold table_size. rewrite stream_pages_ok.
  rewrite u32_small by (change (2 ^ 32) with 4294967296; lia). unfold W, table_words, ps. fold S_. lia.
Qed.
Lemma table_pages_ok : table_pages ss = T.
Proof.
  destruct size_bounds as [B1 [B2 [B3 [B4 [B5 B6]]]]]. unfold table_pages, size_in_pages. rewrite table_size_ok. change ((W + 4095) / ps) with T.
  apply u32_small. change (2 ^ 32) with 4294967296. lia.
Qed.
Lemma page_list_size_ok : page_list_size ss = 4 * T.
Proof.
  destruct size_bounds as [B1 [B2 [B3 [B4 [B5 B6]]]]]. unfold page_list_size. rewrite table_pages_ok. apply u32_small. change (2 ^ 32) with 4294967296. lia.
Qed.
Lemma page_list_pages_ok : page_list_pages ss = L.
Proof.
  destruct size_bounds as [B1 [B2 [B3 [B4 [B5 B6]]]]]. unfold page_list_pages, size_in_pages. rewrite page_list_size_ok. change ((4 * T + 4095) / ps) with L.
  apply u32_small. change (2 ^ 32) with 4294967296. lia.
Qed.
Lemma page_list_end_ok : page_list_end ss = pg L.
Proof.
  destruct size_bounds as [B1 [B2 [B3 [B4 [B5 B6]]]]]. unfold page_list_end. rewrite page_list_pages_ok. change (0x1000 - 2) with 4094. fold (pg L).
  apply u32_small. change (2 ^ 32) with 4294967296. unfold pg. lia.
Qed.
Lemma table_page_end_ok : table_page_end ss = pg (L + T).
Proof.
  destruct size_bounds as [B1 [B2 [B3 [B4 [B5 B6]]]]]. unfold table_page_end. rewrite page_list_pages_ok, table_pages_ok. change (0x1000 - 2) with 4094. fold (pg (L + T)).
  apply u32_small. change (2 ^ 32) with 4294967296. unfold pg. lia.
Qed.
Lemma amount_ok : amount_of_pages ss = q (L + T + S_).
Proof.
  unfold amount_of_pages. rewrite !align_page_ok, stream_pages_ok, table_size_ok, page_list_size_ok. fold T L S_.
  cbv zeta. replace ((4096 * S_ + 4096 * T + 4096 * L) / ps) with (L + T + S_) by (unfold ps; lia).
  change (0x1000 - 2 - 1) with 4093. change (0x1000 - 2) with 4094. unfold q. lia.
Qed.
Lemma amount_bound : q (L + T + S_) < 2 ^ 32.
Proof. destruct size_bounds as [B1 [B2 [B3 [B4 [B5 B6]]]]]. change (2 ^ 32) with 4294967296. unfold q. lia. Qed.

Lemma page_list_stream_ok : page_list_stream ss = bytes_u32s (map pg (zseq L T)).
Proof.
  destruct size_bounds as [B1 [B2 [B3 [B4 [B5 B6]]]]]. unfold page_list_stream. rewrite page_list_end_ok, table_page_end_ok, pages_pg by lia.
  do 3 f_equal. lia.
Qed.
Hypothesis sizes : Forall (fun s => zlen s <= 2 ^ 32 - 4096) ss.
Lemma table_stream_ok : table_stream ss = bytes_u32s (zlen ss + 1 :: 0 :: map len ss ++ map pg (zseq (L + T) S_)).
Proof.
  destruct size_bounds as [B1 [B2 [B3 [B4 [B5 B6]]]]]. unfold table_stream. rewrite table_page_end_ok, amount_ok, pages_pg_q by lia.
  rewrite u32_small by (change (2 ^ 32) with 4294967296; lia). replace (L + T + S_ - (L + T)) with S_ by lia.
  cbn [app]. do 4 f_equal. apply map_ext_in. intros s Hs. rewrite Forall_forall in sizes. specialize (sizes s Hs).
  change (len s) with (zlen s). apply u32_small. pose proof (zlen_nonneg _ s). change (2 ^ 32) with 4294967296 in *. lia.
Qed.
Lemma words_range : Forall (fun x => 0 <= x < 2 ^ 32) (zlen ss + 1 :: 0 :: map len ss ++ map pg (zseq (L + T) S_)).
Proof.
  destruct size_bounds as [B1 [B2 [B3 [B4 [B5 B6]]]]]. change (2 ^ 32) with 4294967296 in *.
  constructor; [lia|]. constructor; [lia|]. apply Forall_app. split; rewrite Forall_map; rewrite Forall_forall.
  - intros s Hs. rewrite Forall_forall in sizes. specialize (sizes s Hs). pose proof (zlen_nonneg _ s). rewrite len_zlen. lia.
  - intros i Hi. apply in_zseq in Hi. unfold pg. lia.
Qed.
Lemma list_range : Forall (fun x => 0 <= x < 2 ^ 32) (map pg (zseq L T)).
Proof.
  destruct size_bounds as [B1 [B2 [B3 [B4 [B5 B6]]]]]. change (2 ^ 32) with 4294967296 in *.
  rewrite Forall_map; rewrite Forall_forall. intros i Hi. apply in_zseq in Hi. unfold pg. lia.
Qed.
Lemma zlen_list : zlen (page_list_stream ss) = 4 * T.
Proof. destruct size_bounds as [B1 [B2 [B3 [B4 [B5 B6]]]]]. rewrite page_list_stream_ok, zlen_bytes, zlen_map, zlen_zseq by lia. reflexivity. Qed.
Lemma zlen_table_words : zlen (zlen ss + 1 :: 0 :: map len ss ++ map pg (zseq (L + T) S_)) = table_words ss.
Proof.
  destruct size_bounds as [B1 [B2 [B3 [B4 [B5 B6]]]]]. rewrite !zlen_cons, zlen_app, !zlen_map, zlen_zseq by lia. unfold table_words. fold S_. lia.
Qed.
Lemma zlen_table : zlen (table_stream ss) = W.
Proof. rewrite table_stream_ok, zlen_bytes, zlen_table_words. reflexivity. Qed.

(** The header page *)
Definition hdr_words : list Z := 0x1000 :: 1 :: q (L + T + S_) :: W :: 0 :: map (fun i => 3 + Z.of_nat i) (seq 0 (Z.to_nat L)).
Hypothesis small : L <= 1011.
Lemma W_small : W < 2 ^ 32.
Proof. change (2 ^ 32) with 4294967296. unfold L, T, pages_for in *. lia. Qed.
Lemma header_ok : msf_header ss = signature ++ bytes_u32s hdr_words ++ fill 0 (4096 - 52 - 4 * L) /\ zlen (msf_header ss) = 4096.
Proof.
  destruct size_bounds as [B1 [B2 [B3 [B4 [B5 B6]]]]]. pose proof W_small. pose proof amount_bound.
  unfold msf_header. rewrite amount_ok, table_size_ok, page_list_pages_ok.
  rewrite (u32_small W) by lia. rewrite (u32_small (q _)) by (unfold q in *; lia).
  change ([4096; 1; q (L + T + S_); W; 0] ++ map (fun i => 3 + Z.of_nat i) (seq 0 (Z.to_nat L))) with hdr_words. cbv zeta.
  assert (zlen (signature ++ bytes_u32s hdr_words) = 52 + 4 * L) as E.
  { rewrite zlen_app, zlen_bytes. unfold hdr_words. rewrite !zlen_cons, zlen_map.
    change (zlen signature) with 32. unfold zlen. rewrite seq_length. lia. }
  rewrite E. rewrite <- app_assoc. split; [do 3 f_equal; lia|]. rewrite app_assoc, zlen_app, E, zlen_fill; lia.
Qed.
Lemma hdr_range : Forall (fun x => 0 <= x < 2 ^ 32) hdr_words.
Proof.
  destruct size_bounds as [B1 [B2 [B3 [B4 [B5 B6]]]]]. pose proof W_small. pose proof amount_bound. change (2 ^ 32) with 4294967296 in *.
  unfold hdr_words. assert (0 <= q (L + T + S_)) by (unfold q; lia). do 5 (constructor; [lia|]). rewrite Forall_map, Forall_forall. intros i Hi. apply in_seq in Hi. lia.
Qed.

(** Reading back *)
Variables (w : writer) (D : list Z).
Let P := L + T + S_.
Hypothesis I : inv (amount_of_pages ss) (msf_header ss) w D P.
Hypothesis HD : D = padded (page_list_stream ss) ++ padded (table_stream ss) ++ concat (map padded ss).

Lemma read_pages_n : forall k a, 0 <= a -> 0 <= k -> a + k <= P ->
  concat (map (page (file w)) (map pg (zseq a k))) = zfirst (4096 * k) (zskip (4096 * a) D).
Proof.
  intros k a Ha Hk. pattern k. apply natlike_ind; [intros _; rewrite zseq_0 by lia; reflexivity| |assumption].
  - intros m Hm IH Hle. unfold Z.succ. rewrite zseq_S by lia. rewrite !map_app, concat_app, IH by lia. cbn [map concat].
    rewrite app_nil_r. pose proof I as [_ Hl _ _ _ _ Hd _]. rewrite Hd by lia.
    replace (4096 * (m + 1)) with (4096 * m + 4096) by lia. rewrite zfirst_split by lia. rewrite zskip_zskip by lia. do 3 f_equal. lia.
Qed.
Lemma on_pages_ok : forall a k size, 0 <= a -> 0 <= k -> a + k <= P -> 0 <= size <= 4096 * k ->
  on_pages (file w) (q P) (map pg (zseq a k)) size = Some (zfirst size (zskip (4096 * a) D)).
Proof.
  intros a k size Ha Hk Hle Hs. unfold on_pages.
  assert (forallb (data_page (q P)) (map pg (zseq a k)) = true) as ->.
  { apply forallb_forall. intros x Hx. apply in_map_iff in Hx. destruct Hx as [i [<- Hi]]. apply in_zseq in Hi.
    pose proof (pg_lt_q i P ltac:(lia)). pose proof (pg_data i ltac:(lia)) as F. rewrite is_fpm_mod in F. apply orb_false_iff in F.
    unfold data_page. destruct F as [-> ->]. destruct (Z.leb_spec 1 (pg i)); [|lia]. destruct (Z.ltb_spec (pg i) (q P)); [reflexivity|lia]. }
  rewrite read_pages_n by assumption. fold (zfirst size (zfirst (4096 * k) (zskip (4096 * a) D))).
  f_equal. unfold zfirst. rewrite firstn_firstn. f_equal. lia.
Qed.

Lemma zfirst_padded : forall s r, zfirst (zlen s) (padded s ++ r) = s.
Proof. intros. unfold padded. rewrite <- app_assoc. apply zfirst_app. reflexivity. Qed.

Lemma streams_ok : forall rest a, 0 <= a -> a + sum_pages rest <= P -> zskip (4096 * a) D = concat (map padded rest) ->
  streams (file w) (q P) (map len rest) (map pg (zseq a (sum_pages rest))) = Some rest.
Proof.
  induction rest as [|s rest]; intros a Ha Hle E.
  - cbn [map streams]. change (sum_pages []) with 0. rewrite zseq_0 by lia. reflexivity.
  - cbn [map streams].
    assert (sum_pages (s :: rest) = pages_for (len s) + sum_pages rest) as Es by reflexivity. 
    pose proof (sum_pages_nonneg rest). rewrite Es in *.
    pose proof (zlen_nonneg _ s). rewrite <- len_zlen in *.
    assert (0 <= pages_for (len s)) by (unfold pages_for; lia).
    rewrite zseq_app, map_app by lia.
    assert (zlen (map pg (zseq a (pages_for (len s)))) = pages_for (len s)) as Ln by (rewrite zlen_map, zlen_zseq; lia).
    fold (zfirst (pages_for (len s)) (map pg (zseq a (pages_for (len s))) ++ map pg (zseq (a + pages_for (len s)) (sum_pages rest)))).
    fold (zskip (pages_for (len s)) (map pg (zseq a (pages_for (len s))) ++ map pg (zseq (a + pages_for (len s)) (sum_pages rest)))).
    rewrite zfirst_app, zskip_app by assumption.
    rewrite on_pages_ok; [|lia|lia|lia|unfold pages_for in *; lia].
    rewrite IHrest; [|lia|lia|].
    + rewrite E. cbn [map concat]. rewrite len_zlen, zfirst_padded.
      destruct (Nat.leb_spec (Z.to_nat (pages_for (zlen s))) (length (map pg (zseq a (pages_for (zlen s))) ++ map pg (zseq (a + pages_for (zlen s)) (sum_pages rest))))) as [_|B]; [reflexivity|].
      rewrite app_length in B. unfold zlen in Ln at 1. rewrite len_zlen in Ln. lia.
    + replace (4096 * (a + pages_for (len s))) with (4096 * a + 4096 * pages_for (len s)) by lia.
      rewrite <- zskip_zskip, E by lia. cbn [map concat]. apply zskip_app. apply zlen_padded.
Qed.

Lemma file_header : exists rest, file w = signature ++ bytes_u32s hdr_words ++ rest.
Proof.
  destruct header_ok as [E _]. pose proof I as [Hn _ Hf _ _ Hh _ _]. rewrite E in Hh.
  exists (fill 0 (4096 - 52 - 4 * L) ++ zskip 4096 (file w)).
  rewrite <- (firstn_skipn (Z.to_nat 4096) (file w)) at 1. fold (zfirst 4096 (file w)). fold (zskip 4096 (file w)).
  rewrite page_z in Hh. change (4096 * 0) with 0 in Hh. rewrite zskip_0 in Hh. rewrite Hh. rewrite <- !app_assoc. reflexivity.
Qed.

Lemma read_ok : read_msf (file w) = Some ([] :: ss).
Proof.
  destruct size_bounds as [B1 [B2 [B3 [B4 [B5 B6]]]]].
  unfold read_msf. destruct file_header as [rest Ef].
  assert (firstn 32 (file w) = magic) as -> by (rewrite Ef; reflexivity).
  destruct (list_eq_dec Z.eq_dec magic magic) as [_|N]; [|congruence]. cbn [negb].
  assert (skipn 32 (file w) = bytes_u32s hdr_words ++ rest) as -> by (rewrite Ef; reflexivity).
  assert (words 5 (bytes_u32s hdr_words ++ rest) = Some [4096; 1; q P; W; 0]) as ->.
  { unfold hdr_words. set (m := map (fun i => 3 + Z.of_nat i) (seq 0 (Z.to_nat L))).
    change (0x1000 :: 1 :: q (L + T + S_) :: W :: 0 :: m) with ([4096; 1; q P; W; 0] ++ m).
    unfold bytes_u32s. rewrite map_app, concat_app, <- app_assoc. apply (words_bytes [4096; 1; q P; W; 0]).
    pose proof hdr_range as R. unfold hdr_words in R. inversion R as [|? ? R0 R1]; subst. inversion R1 as [|? ? R2 R3]; subst. inversion R3 as [|? ? R4 R5]; subst. inversion R5 as [|? ? R6 R7]; subst.
    inversion R7; subst. repeat (constructor; [assumption|]). constructor. }
  pose proof I as [Hn Hl Hf _ _ Hh _ _].
  rewrite len_zlen, Hf. fold P. rewrite Z.eqb_refl. cbn [Z.eqb Pos.eqb orb andb].
  fold T. fold L.
  (* the page numbers in the header *)
  assert (words (Z.to_nat L) (skipn 52 (page (file w) 0)) = Some (map pg (zseq 0 L))) as ->.
  { rewrite Hh. destruct header_ok as [-> _].
    assert (map (fun i => 3 + Z.of_nat i) (seq 0 (Z.to_nat L)) = map pg (zseq 0 L)) as Em.
    { unfold zseq. rewrite map_map. apply map_ext_in. intros i Hi. apply in_seq in Hi. unfold pg. lia. }
    unfold hdr_words. rewrite Em. 
    change (skipn 52 (signature ++ bytes_u32s (4096 :: 1 :: q (L + T + S_) :: W :: 0 :: map pg (zseq 0 L)) ++ fill 0 (4096 - 52 - 4 * L)))
      with (bytes_u32s (map pg (zseq 0 L)) ++ fill 0 (4096 - 52 - 4 * L)).
    apply words_n; [rewrite zlen_map, zlen_zseq; lia|]. rewrite Forall_map, Forall_forall. intros i Hi. apply in_zseq in Hi.
    change (2 ^ 32) with 4294967296. unfold pg. lia. }
  assert (L + T + S_ = P) as EP by reflexivity.
  rewrite on_pages_ok; [|lia|lia|lia|unfold L, pages_for; lia].
  change (4096 * 0) with 0. rewrite zskip_0, HD, <- zlen_list, zfirst_padded, page_list_stream_ok.
  rewrite <- (app_nil_r (bytes_u32s _)). rewrite words_n; [|rewrite zlen_map, zlen_zseq; lia|apply list_range].
  rewrite on_pages_ok; [|lia|lia|lia|unfold T, pages_for; lia].
  assert (zskip (4096 * L) D = padded (table_stream ss) ++ concat (map padded ss)) as Et.
  { rewrite HD. apply zskip_app. rewrite zlen_padded, zlen_list. reflexivity. }
  rewrite Et, <- zlen_table, zfirst_padded, zlen_table.
  rewrite table_stream_ok. set (all := zlen ss + 1 :: 0 :: map len ss ++ map pg (zseq (L + T) S_)).
  assert (words 1 (bytes_u32s all) = Some [zlen ss + 1]) as ->.
  { unfold all. pose proof words_range as R. inversion R; subst.
    change (bytes_u32s (zlen ss + 1 :: 0 :: map len ss ++ map pg (zseq (L + T) S_))) with (bytes_u32s [zlen ss + 1] ++ bytes_u32s (0 :: map len ss ++ map pg (zseq (L + T) S_))).
    apply (words_bytes [zlen ss + 1]). constructor; [assumption|constructor]. }
  cbn [nth]. rewrite <- (app_nil_r (bytes_u32s all)).
  rewrite words_n; [|unfold W in *; unfold all; rewrite zlen_table_words; lia|apply words_range].
  destruct (Z.ltb_spec (W / 4) (1 + (zlen ss + 1))) as [B|_]; [unfold W, table_words, S_ in *; lia|].
  unfold all. cbn [skipn].
  replace (Z.to_nat (zlen ss + 1)) with (S (length ss)) by (unfold zlen; lia).
  replace (Z.to_nat (1 + (zlen ss + 1))) with (S (S (length ss))) by (unfold zlen; lia). cbn [firstn skipn].
  replace (length ss) with (length (map len ss) + 0)%nat by (rewrite map_length; lia).
  rewrite firstn_app_2. cbn [firstn]. rewrite app_nil_r.
  rewrite skipn_app, skipn_all2 by lia. replace (length (map len ss) + 0 - length (map len ss))%nat with 0%nat by lia. cbn [skipn app].
  cbn [streams]. change (pages_for 0) with 0. change (Z.to_nat 0) with 0%nat. cbn [firstn skipn on_pages forallb].
  rewrite streams_ok; [rewrite Z.eqb_refl; reflexivity|lia|fold S_; lia|].
  replace (4096 * (L + T)) with (4096 * L + 4096 * T) by lia. rewrite <- zskip_zskip, Et by lia. apply zskip_app. rewrite zlen_padded, zlen_table. reflexivity.
Qed.
End Sizes.

Definition list_pages (ss : list (list Z)) : Z := pages_for (4 * pages_for (4 * table_words ss)).

Lemma list_pages_eq : forall ss, pages_for (4 * pages_for (4 * table_words ss)) = list_pages ss.
Proof. reflexivity. Qed.
Lemma init_inv : forall ss, zlen ss < 2 ^ 30 -> sum_pages ss < 2 ^ 31 -> list_pages ss <= 1011 ->
  inv (amount_of_pages ss) (msf_header ss) {| file := msf_header ss; write_offset := 0x1000; next_free_page_maps := 0x1000 |} [] 0.
Proof.
  intros ss H1 H2 H3. destruct (header_ok ss H1 H2 H3) as [_ Hl].
  split; cbn [file write_offset next_free_page_maps]; try reflexivity; auto; try (intros; lia).
  - rewrite page_z. change (4096 * 0) with 0. rewrite zskip_0. apply zfirst_all. lia.
  - intros k Hk. unfold maps in Hk. lia.
Qed.

Lemma inv_eq : forall a h w D n D' n', inv a h w D n -> D = D' -> n = n' -> inv a h w D' n'.
Proof. intros. subst. assumption. Qed.
Lemma fold_right_cons_pages : forall (s : list Z) (ss : list (list Z)), fold_right (fun s a => pages_for (zlen s) + a) 0 (s :: ss) = pages_for (zlen s) + fold_right (fun s a => pages_for (zlen s) + a) 0 ss.
Proof. reflexivity. Qed.
Lemma sum_pages_z : forall ss : list (list Z), fold_right (fun s a => pages_for (zlen s) + a) 0 ss = sum_pages ss.
Proof. reflexivity. Qed.

Lemma write_msf_cases : forall ss, zlen ss < 2 ^ 30 -> sum_pages ss < 2 ^ 31 -> Forall (fun s => zlen s <= 2 ^ 32 - 4096) ss ->
  (1011 < list_pages ss -> write_msf ss = Reported) /\
  (list_pages ss <= 1011 -> exists w D, write_msf ss = Done (file w) /\ 
     inv (amount_of_pages ss) (msf_header ss) w D (list_pages ss + pages_for (4 * table_words ss) + sum_pages ss) /\
     D = padded (page_list_stream ss) ++ padded (table_stream ss) ++ concat (map padded ss)).
Proof.
  intros ss H1 H2 H3. unfold write_msf.
  rewrite zlen_list, page_list_size_ok, zlen_table, table_size_ok, page_list_pages_ok by assumption. rewrite !Z.eqb_refl. cbn [negb].
  pose proof (amount_bound ss H1 H2) as Ha. rewrite (amount_ok ss H1 H2). rewrite list_pages_eq in *.
  destruct (Z.gtb_spec (q (list_pages ss + pages_for (4 * table_words ss) + sum_pages ss)) (2 ^ 32 - 1)) as [B|_]; [exfalso; lia|].
  change ((0x1000 - 52) / 4) with 1011.
  split; intro H.
  - destruct (Z.gtb_spec (list_pages ss) 1011); [reflexivity|lia].
  - destruct (Z.gtb_spec (list_pages ss) 1011); [lia|].
    pose proof (size_bounds ss H1 H2) as [B1 [B2 [B3 [B4 [B5 B6]]]]]. rewrite list_pages_eq in B4.
    assert (Forall (fun s => zlen s <= 2 ^ 32 - 4096) (page_list_stream ss :: table_stream ss :: ss)) as Hall.
    { constructor; [|constructor; [|exact H3]].
      - rewrite zlen_list by assumption. change (2 ^ 32) with 4294967296. lia.
      - rewrite zlen_table by assumption. change (2 ^ 32) with 4294967296. unfold list_pages, pages_for in *. lia. }
    destruct (write_streams_ok _ _ _ _ _ _ Hall (init_inv ss H1 H2 H)) as [w [E Iw]].
    pose proof (amount_ok ss H1 H2) as Ea. rewrite list_pages_eq in Ea. rewrite <- Ea, E. cbn [obind]. exists w. eexists. split; [reflexivity|].
    split; [|reflexivity]. refine (inv_eq _ _ _ _ _ _ _ Iw _ _); [rewrite app_nil_l, !map_cons, !concat_cons; reflexivity|].
    rewrite !fold_right_cons_pages, zlen_list, zlen_table by assumption. rewrite sum_pages_z. unfold list_pages. lia.
Qed.

Lemma write_read : forall ss f, zlen ss < 2 ^ 30 -> sum_pages ss < 2 ^ 31 -> Forall (fun s => zlen s <= 2 ^ 32 - 4096) ss ->
  write_msf ss = Done f -> read_msf f = Some ([] :: ss).
Proof.
  intros ss f H1 H2 H3 E. destruct (write_msf_cases ss H1 H2 H3) as [C1 C2].
  destruct (Z_lt_le_dec 1011 (list_pages ss)) as [L|L]; [rewrite C1 in E by assumption; congruence|].
  destruct (C2 L) as [w [D [E2 [Iw HD]]]]. assert (f = file w) as -> by congruence.
  exact (read_ok ss H1 H2 H3 L w D Iw HD).
Qed.

(** The free page map *)
Lemma nth_set_bit : forall b x j, 0 <= x -> 0 <= j -> x / 8 < zlen b ->
  nth (Z.to_nat j) (set_bit b x) 0 = if j =? x / 8 then Z.lor (nth (Z.to_nat j) b 0) (Z.shiftl 1 (x mod 8)) else nth (Z.to_nat j) b 0.
Proof.
  intros b x j Hx Hj Hl. unfold set_bit. set (n := Z.to_nat (x / 8)). assert (n < length b)%nat as Hn by (unfold zlen, n in *; lia).
  pose proof (firstn_length n b) as Lf.
  destruct (skipn n b) as [|c r] eqn:E. { pose proof (skipn_length n b) as Ls. rewrite E in Ls. cbn [length] in Ls. lia. }
  assert (b = firstn n b ++ c :: r) as Eb by (rewrite <- E; symmetry; apply firstn_skipn).
  remember (firstn n b) as fb eqn:Efb. clear Efb E. subst b.
  destruct (Z.eqb_spec j (x / 8)) as [->|N].
  - fold n. rewrite !app_nth2 by lia. replace (n - length fb)%nat with 0%nat by lia. reflexivity.
  - assert (Z.to_nat j <> n) by (unfold n; lia).
    destruct (Nat.lt_ge_cases (Z.to_nat j) n); [rewrite !app_nth1 by lia; reflexivity|]. rewrite !app_nth2 by lia.
    replace (Z.to_nat j - length fb)%nat with (S (Z.to_nat j - length fb - 1)) by lia. reflexivity.
Qed.

Ltac bool_lia := repeat (match goal with |- context[?a <=? ?b] => destruct (Z.leb_spec a b) | |- context[?a <? ?b] => destruct (Z.ltb_spec a b)
  | |- context[?a =? ?b] => destruct (Z.eqb_spec a b) end); cbn [andb orb negb]; try reflexivity; try (exfalso; lia).
Lemma fold_bits : forall m a r, 0 <= a -> a + Z.of_nat m <= 32768 -> 0 <= r < 32768 ->
  Z.testbit (nth (Z.to_nat (r / 8)) (fold_left (fun buffer i => set_bit buffer (a + Z.of_nat i)) (seq 0 m) (fill 0 ps)) 0) (r mod 8) = ((a <=? r) && (r <? a + Z.of_nat m))
  /\ zlen (fold_left (fun buffer i => set_bit buffer (a + Z.of_nat i)) (seq 0 m) (fill 0 ps)) = 4096.
Proof.
  induction m; intros a r Ha Hm Hr.
  - cbn [seq fold_left]. split; [|apply zlen_fill; unfold ps; lia]. unfold fill. rewrite nth_repeat, Z.bits_0. destruct (Z.leb_spec a r), (Z.ltb_spec r (a + Z.of_nat 0)); try reflexivity; lia.
  - rewrite seq_S, fold_left_app. cbn [fold_left Nat.add]. destruct (IHm a r Ha ltac:(lia) Hr) as [Eb El].
    rewrite zlen_set_bit. split; [|exact El].
    revert Eb El. generalize (fold_left (fun buffer i => set_bit buffer (a + Z.of_nat i)) (seq 0 m) (fill 0 ps)). intros b Eb El.
    rewrite nth_set_bit by lia. destruct (Z.eqb_spec (r / 8) ((a + Z.of_nat m) / 8)) as [E|E].
    + rewrite Z.lor_spec, Eb, Z.shiftl_1_l, Z.pow2_bits_eqb by lia. bool_lia.
    + rewrite Eb. bool_lia.
Qed.

Lemma fpm_bit : forall amount k r, 0 <= k -> 0 <= amount -> 0 <= r < 32768 ->
  Z.testbit (nth (Z.to_nat (r / 8)) (free_page_map amount k) 0) (r mod 8) = (amount <=? k * 32768 + r).
Proof.
  intros amount k r Hk Ha Hr. unfold free_page_map. destruct (Z.leb_spec ((k + 1) * 0x8000) amount).
  { unfold fill. rewrite nth_repeat, Z.bits_0. bool_lia. }
  destruct (Z.ltb_spec amount (k * 0x8000)).
  { unfold fill. rewrite nth_indep with (d' := 255) by (rewrite repeat_length; unfold ps; lia). rewrite nth_repeat. change 255 with (Z.ones 8).
    rewrite Z.ones_spec_low by lia. bool_lia. }
  destruct (fold_bits (Z.to_nat ((k + 1) * 0x8000 - amount)) (amount - k * 0x8000) r ltac:(lia) ltac:(lia) Hr) as [E _].
  assert (forall l b, fold_left (fun buffer i => set_bit buffer (amount - k * 0x8000 + Z.of_nat i)) l b =
                      fold_left (fun buffer i => set_bit buffer (amount + Z.of_nat i - k * 0x8000)) l b) as Ef.
  { induction l; intros b; [reflexivity|]. cbn [fold_left]. rewrite IHl. f_equal. f_equal. lia. }
  rewrite Ef in E. rewrite E. bool_lia.
Qed.

Lemma write_marks : forall ss f p, zlen ss < 2 ^ 30 -> sum_pages ss < 2 ^ 31 -> Forall (fun s => zlen s <= 2 ^ 32 - 4096) ss ->
  write_msf ss = Done f -> 0 <= p -> 4096 * (4096 * (p / 32768) + 1) < len f -> marked_free f p = (len f <=? 4096 * p).
Proof.
  intros ss f p H1 H2 H3 E Hp Hin. destruct (write_msf_cases ss H1 H2 H3) as [C1 C2].
  destruct (Z_lt_le_dec 1011 (list_pages ss)) as [L|L]; [rewrite C1 in E by assumption; congruence|].
  destruct (C2 L) as [w [D [E2 [Iw HD]]]]. assert (f = file w) as -> by congruence. change (len (file w)) with (zlen (file w)) in *.
  pose proof (amount_ok ss H1 H2) as Ea. rewrite list_pages_eq in Ea.
  destruct Iw as [Hn _ Hf _ _ _ _ Hm]. rewrite Hf in *. rewrite <- Ea in *.
  unfold marked_free. rewrite Hm.
  - replace (p mod 8) with (p mod 32768 mod 8) by lia.
    rewrite fpm_bit; [|lia| |lia].
    + replace (p / 32768 * 32768 + p mod 32768) with p by lia. bool_lia.
    + lia.
  - rewrite Ea in Hin. unfold maps. unfold q in Hin. lia.
Qed.

(** A stream of almost 4 GiB *)
Lemma huge_loops : forall fuel amount s w off, 2 ^ 32 - 4096 < zlen s -> 0 <= off < 2 ^ 32 -> off mod 4096 = 0 ->
  write_stream fuel amount s off w = Crash.
Proof.
  induction fuel; intros amount s w off H Ho Hm; [reflexivity|]. change (2 ^ 32) with 4294967296 in *.
  rewrite write_step by lia. cbv zeta.
  set (stw := if u32 (zlen s - off) >? _ then _ else _). 
  apply IHfuel; [exact H| |].
  - unfold u32 at 1 3. unfold wrapu. change (2 ^ 32) with 4294967296. apply Z.mod_pos_bound. lia.
  - rewrite land_fff. clearbody stw. unfold u32, wrapu. change (2 ^ 32) with 4294967296. change 0x1000 with 4096.
    destruct (Z.eqb_spec (stw mod 4096) 0); cbn [negb]; lia.
Qed.
