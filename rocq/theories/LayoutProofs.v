(** Proofs for C12. *)
From Coq Require Import Sorted.
From Verif Require Import Base UtilModel UtilSpec UtilProofs LayoutModel LayoutSpec.

Lemma power_pos : forall a, power_of_two a -> 1 <= a.
Proof. intros a (k & K & ->). assert (0 < 2 ^ k) by (apply pow2_pos, K). lia. Qed.
Lemma power_max : forall a b, power_of_two a -> power_of_two b -> power_of_two (Z.max a b).
Proof. intros a b A B. destruct (Z.max_spec a b) as [(_ & ->)|(_ & ->)]; assumption. Qed.
Lemma power_min : forall a b, power_of_two a -> power_of_two b -> power_of_two (Z.min a b).
Proof. intros a b A B. destruct (Z.min_spec a b) as [(_ & ->)|(_ & ->)]; assumption. Qed.
Lemma power_one : power_of_two 1.
Proof. exists 0. split; [lia|reflexivity]. Qed.

Section P.
Variables (packed : bool) (pragma : Z).
Hypothesis PR : power_of_two pragma.

Lemma aligned_unique : forall it a b, aligned_as packed pragma it a -> aligned_as packed pragma it b -> a = b.
Proof. intros it a b A B. inversion A; inversion B; congruence. Qed.

Lemma decl_alignment_ok : forall it, proper it -> aligned_as packed pragma it (decl_alignment packed pragma it) /\ power_of_two (decl_alignment packed pragma it) /\
  decl_alignment packed pragma it <= i_align it + i_spec it.
Proof.
  intros it (S & A & Sp). assert (1 <= i_align it) by (apply power_pos, A). unfold decl_alignment. destruct (Z.eqb_spec (i_spec it) 0) as [E|E]; cbn [negb].
  - destruct packed eqn:Pk; [split; [apply a_packed; auto|split; [apply power_one|lia]]|]. destruct (i_user it) eqn:U; cbn [negb andb].
    + split; [apply a_user; auto|split; [exact A|lia]].
    + assert (Q : (if pragma <? i_align it then pragma else i_align it) = Z.min (i_align it) pragma) by (destruct (Z.ltb_spec pragma (i_align it)); lia). rewrite Q.
      split; [apply a_pragma; auto|split; [apply power_min; assumption|lia]].
  - destruct Sp as [Sp|Sp]; [contradiction|]. split; [apply a_spec, E|split; [exact Sp|lia]].
Qed.

Lemma has_nested : forall u o ms l l', register_nested u o ms l = Done l' -> map strip l' = map strip l ++ map (shift o) ms.
Proof.
  intros u o ms. induction ms as [|m ms IH]; intros l l' E; cbn [register_nested] in E.
  - injection E as <-. cbn [map]. rewrite app_nil_r. reflexivity.
  - destruct (match m_name m with Some n => has_member n l | None => false end); [discriminate|]. apply IH in E. rewrite E, map_app. cbn [map]. rewrite <- app_assoc. reflexivity.
Qed.
Lemma nested_no_crash : forall u o ms l, register_nested u o ms l <> Crash.
Proof. intros u o ms. induction ms as [|m ms IH]; intros l; cbn [register_nested]; [discriminate|]. destruct (match m_name m with Some n => has_member n l | None => false end); [discriminate|apply IH]. Qed.

Lemma register_ok : forall it bits o l l', register it bits o l = Done l' -> map strip l' = map strip l ++ contributes (mkplacement it o bits).
Proof.
  intros it bits o l l' E. unfold register in E. unfold contributes. cbn [p_item p_bits p_offset]. destruct (i_name it) as [n|].
  - destruct (has_member n l); [discriminate|]. injection E as <-. rewrite map_app. reflexivity.
  - destruct (i_nested it) as [(u, ms)|]; [|discriminate]. apply has_nested in E. rewrite E, map_app. cbn [map strip m_name m_size m_bits m_offset]. rewrite <- app_assoc. reflexivity.
Qed.
Lemma register_last : forall it n bits o l l', i_name it = Some n -> register it bits o l = Done l' -> l' = l ++ [mkmember (Some n) (i_size it) bits o 1].
Proof. intros it n bits o l l' N E. unfold register in E. rewrite N in E. destruct (has_member n l); [discriminate|]. injection E as <-. reflexivity. Qed.
Lemma register_no_crash : forall it bits o l, register it bits o l <> Crash.
Proof. intros it bits o l. unfold register. destruct (i_name it); [destruct (has_member n l); discriminate|]. destruct (i_nested it) as [(u, ms)|]; [apply nested_no_crash|discriminate]. Qed.

(** The open unit belongs to the last member. *)
Definition coherent (s : layout) : Prop :=
  match l_unit s with None => True | Some u => exists l m b, l_members s = l ++ [m] /\ m_bits m = Some b /\ m_offset m = l_size s - u end.
Definition unit_of (s : layout) : option (Z * Z) := match l_unit s with None => None | Some u => Some (u, l_index s) end.

Lemma next_offset_range : forall e a o, 1 <= a -> next_offset e a o -> e <= o < e + a.
Proof.
  intros e a o A ((L & D) & M). split; [exact L|]. destruct (Z.lt_ge_cases o (e + a)) as [H|H]; [exact H|exfalso]. assert (o <= o - a); [|lia]. apply M. split; [lia|]. apply Z.divide_sub_r; [exact D|apply Z.divide_refl].
Qed.

Lemma offset_ok : forall s it, proper it -> 0 <= l_size s -> l_size s + need it < 2 ^ 62 ->
  exists o, offset_for false packed pragma s it false = Done (o, o + i_size it) /\ next_offset (l_size s) (decl_alignment packed pragma it) o /\ l_size s <= o /\ o + i_size it <= l_size s + need it.
Proof.
  intros s it P S B. destruct (decl_alignment_ok it P) as (A & Q & L). destruct P as (Z0 & P1 & P2). assert (1 <= i_align it) by (apply power_pos, P1). assert (0 <= i_spec it) by (destruct P2 as [->|P2]; [lia|apply power_pos in P2; lia]).
  assert (1 <= decl_alignment packed pragma it) by (apply power_pos, Q). unfold need in *.
  destruct (align_up_ok (l_size s) (decl_alignment packed pragma it)) as (o & E & M); [lia|exact Q|lia|lia|]. assert (R := next_offset_range _ _ _ H1 M). exists o. unfold offset_for. rewrite E. cbn [obind].
  assert (W : wraps 64 o = o). { apply wraps_id; [lia|]. change (64 - 1) with 63. lia. }
  rewrite W. destruct (Z.ltb_spec (o + i_size it) (2 ^ 63)); [|lia]. split; [reflexivity|]. split; [exact M|]. lia.
Qed.

Lemma strictest_nil : forall a, strictest packed pragma a [] a.
Proof. intro a. split; [lia|]. split; [intros p b []|left; reflexivity]. Qed.
Lemma strictest_cons : forall a0 it o b ps a c, aligned_as packed pragma it c -> strictest packed pragma (Z.max c a0) ps a -> strictest packed pragma a0 (mkplacement it o b :: ps) a.
Proof.
  intros a0 it o b ps a c C (S1 & S2 & S3). split; [lia|]. split.
  - intros p d [<-|I] D; [|exact (S2 p d I D)]. cbn [p_item] in D. rewrite (aligned_unique it d c D C). lia.
  - destruct S3 as [->|(p & I & A)]; [|right; exists p; split; [right; exact I|exact A]]. destruct (Z.max_spec c a0) as [(_ & ->)|(_ & ->)]; [left; reflexivity|right]. eexists. split; [left; reflexivity|exact C].
Qed.

Definition result (s : layout) (items : list item) (r : outcome layout) : Prop :=
  match r with
  | Done s' => exists ps, laid packed pragma (l_size s) (unit_of s) items ps (l_size s') /\ map strip (l_members s') = map strip (l_members s) ++ flat_map contributes ps /\
      strictest packed pragma (l_align s) ps (l_align s') /\ power_of_two (l_align s') /\ l_size s <= l_size s' <= l_size s + needs items
  | Reported => True
  | Crash => False
  end.

Lemma need_nonneg : forall it, proper it -> 0 <= need it.
Proof. intros it (S & A & Sp). apply power_pos in A. unfold need. destruct Sp as [->|Sp]; [lia|]. apply power_pos in Sp. lia. Qed.
Lemma needs_nonneg : forall items, Forall proper items -> 0 <= needs items.
Proof. induction 1 as [|it items P F IH]; [cbn; lia|]. apply need_nonneg in P. cbn [needs map fold_right] in *. unfold needs in IH. lia. Qed.

Lemma declare_all_ok : forall items s, Forall proper items -> unnamed_fit (unit_of s) items -> coherent s -> 0 <= l_size s -> l_size s + needs items < 2 ^ 62 -> power_of_two (l_align s) ->
  result s items (declare_all false packed pragma s items).
Proof.
  induction items as [|it items IH]; intros s F UF Co S B PA.
  - cbn [declare_all result]. exists []. split; [constructor|]. cbn [flat_map]. rewrite app_nil_r. split; [reflexivity|]. split; [apply strictest_nil|]. split; [exact PA|]. cbn. lia.
  - inversion_clear F as [|? ? P F']. assert (NN := need_nonneg it P). assert (NS := needs_nonneg items F'). change (needs (it :: items)) with (need it + needs items) in *.
    destruct (decl_alignment_ok it P) as (A & Q & _). cbn [declare_all].
    (* a member at the next offset *)
    assert (fresh : forall unit index bits, (unit = None \/ exists n, i_name it = Some n /\ bits <> None /\ unit = Some (i_size it)) ->
      unnamed_fit (match unit with None => None | Some u => Some (u, index) end) items ->
      (forall o ps e', next_offset (l_size s) (decl_alignment packed pragma it) o -> laid packed pragma (o + i_size it) (match unit with None => None | Some u => Some (u, index) end) items ps e' ->
         laid packed pragma (l_size s) (unit_of s) (it :: items) (mkplacement it o bits :: ps) e') ->
      result s (it :: items) (obind (place false packed pragma (set_unit s unit index) it bits false) (fun s => declare_all false packed pragma s items))).
    { intros unit index bits Un UF' R. unfold place. destruct (offset_ok (set_unit s unit index) it P) as (o & E & N & O1 & O2); [exact S|change (l_size (set_unit s unit index)) with (l_size s); lia|]. change (l_size (set_unit s unit index)) with (l_size s) in *.
      rewrite E. cbn [obind]. destruct (register it bits o (l_members (set_unit s unit index))) as [ms| |] eqn:Rg; cbn [obind]; [|exact I|exact (register_no_crash _ _ _ _ Rg)].
      set (s1 := mklayout _ _ _ _ _). assert (Z0 := proj1 P). assert (C1 : coherent s1).
      { unfold coherent, s1. cbn [l_unit set_unit]. destruct Un as [->|(n & Nm & Bt & ->)]; [exact I|]. apply (register_last _ n) in Rg; [|exact Nm]. destruct bits as [b|]; [|congruence]. exists (l_members s), (mkmember (Some n) (i_size it) (Some b) o 1), b. cbn [l_members l_size m_bits m_offset]. split; [exact Rg|]. split; [reflexivity|lia]. }
      assert (G := IH s1 F' UF' C1). cbn [l_size s1 l_align] in G. specialize (G ltac:(lia) ltac:(lia) (power_max _ _ Q PA)). unfold result in *; change (needs (it :: items)) with (need it + needs items) in *. destruct (declare_all false packed pragma s1 items) as [s'| |]; [|exact I|exact G].
      destruct G as (ps & L & M & St & PA' & B'). exists (mkplacement it o bits :: ps). split; [apply R; assumption|]. cbn [l_members s1 l_align l_size] in *. split; [|split; [|split; [exact PA'|]]].
      - rewrite M. apply register_ok in Rg. rewrite Rg. cbn [set_unit l_members flat_map]. rewrite <- app_assoc. reflexivity.
      - eapply strictest_cons; eassumption.
      - lia. }
    unfold declare. destruct (i_width it) as [w|] eqn:Wd.
    + destruct (negb (i_integer it) || (w <? 0)) eqn:E0; [exact I|]. apply orb_false_iff in E0 as (_ & E0). apply Z.ltb_ge in E0. cbn [unnamed_fit] in UF. rewrite Wd in UF. destruct (Z.eqb_spec w 0) as [Ew|W0].
      * destruct (i_name it) eqn:Nm; [exact I|]. cbn [obind]. assert (G := IH (set_unit s None 0) F' UF I S ltac:(cbn [set_unit l_size]; lia) PA). unfold result in *; change (needs (it :: items)) with (need it + needs items) in *. destruct (declare_all false packed pragma (set_unit s None 0) items) as [s'| |]; [|exact I|exact G].
        destruct G as (ps & L & M & St & PA' & B'). exists ps. cbn [set_unit l_size l_members l_align] in *. split; [apply l_zero; [congruence|exact Nm|exact L]|]. split; [exact M|]. split; [exact St|]. split; [exact PA'|lia].
      * destruct (Z.ltb_spec (i_size it * 8) w) as [W1|W1]; [exact I|].
        destruct (match l_unit s with Some u => (u =? i_size it) && (l_index s + w <=? i_size it * 8) | None => false end) eqn:Ft.
        -- destruct (l_unit s) as [u|] eqn:Un; [|discriminate]. assert (Ft' := Ft). apply andb_prop in Ft as (Ft1 & Ft2). apply Z.eqb_eq in Ft1. apply Z.leb_le in Ft2. subst u. unfold unit_of in UF. rewrite Un in UF.
           rewrite Z.eqb_refl in UF. assert (Hle : (l_index s + w <=? 8 * i_size it) = true) by (apply Z.leb_le; lia). rewrite Hle in UF. cbn [andb] in UF.
           unfold coherent in Co. rewrite Un in Co. destruct Co as (l & m & b & Lm & Mb & Mo).
           destruct (i_name it) as [n|] eqn:Nm.
           ++ assert (NE : negb match l_members s with [] => true | _ => false end = true) by (rewrite Lm; destruct l; reflexivity). rewrite NE. cbn [andb]. unfold place, offset_for. cbn [set_unit l_members l_size l_align l_unit l_index]. rewrite Lm at 1. rewrite rev_app_distr. cbn [rev app]. rewrite Mb. cbn [obind].
              destruct (register it (Some (l_index s, w)) (m_offset m) (l_members s)) as [ms| |] eqn:Rg; cbn [obind]; [|exact I|exact (register_no_crash _ _ _ _ Rg)].
              set (s1 := mklayout _ _ _ _ _). assert (Rl := register_last _ n _ _ _ _ Nm Rg). assert (C1 : coherent s1). { unfold coherent, s1. cbn [l_unit]. eexists _, _, _. cbn [l_members l_size]. split; [exact Rl|]. split; [reflexivity|exact Mo]. }
              assert (G := IH s1 F' UF C1). cbn [l_size s1 l_align] in G. specialize (G S ltac:(lia) (power_max _ _ Q PA)). unfold result in *; change (needs (it :: items)) with (need it + needs items) in *. destruct (declare_all false packed pragma s1 items) as [s'| |]; [|exact I|exact G].
              destruct G as (ps & L & M & St & PA' & B'). exists (mkplacement it (m_offset m) (Some (l_index s, w)) :: ps). cbn [l_members s1 l_align l_size] in *. split; [|split; [|split; [|split; [exact PA'|lia]]]].
              ** rewrite Mo. unfold unit_of. rewrite Un. eapply l_share; [exact Wd|exact Nm|lia|split; [reflexivity|lia]|exact L].
              ** rewrite M. apply register_ok in Rg. rewrite Rg. cbn [flat_map]. rewrite <- app_assoc. reflexivity.
              ** eapply strictest_cons; eassumption.
           ++ cbn [obind]. assert (C1 : coherent (set_unit s (Some (i_size it)) (l_index s + w))) by (unfold coherent; cbn [set_unit l_unit l_members l_size]; exists l, m, b; auto).
              assert (G := IH (set_unit s (Some (i_size it)) (l_index s + w)) F' UF C1 S ltac:(cbn [set_unit l_size]; lia) PA). unfold result in *; change (needs (it :: items)) with (need it + needs items) in *. destruct (declare_all false packed pragma _ items) as [s'| |]; [|exact I|exact G].
              destruct G as (ps & L & M & St & PA' & B'). exists ps. cbn [set_unit l_size l_members l_align] in *. split; [|split; [exact M|split; [exact St|split; [exact PA'|lia]]]]. unfold unit_of. rewrite Un. eapply l_skip; [exact Wd|exact Nm|lia|split; [reflexivity|lia]|exact L].
        -- assert (NF : ~ fits (unit_of s) it w). { unfold fits, unit_of. destruct (l_unit s) as [u|]; [|intros []]. intros (-> & L). rewrite Z.eqb_refl in Ft. cbn [andb] in Ft. apply Z.leb_gt in Ft. lia. }
           assert (UF' : i_name it <> None /\ unnamed_fit (Some (i_size it, w)) items). { unfold unit_of in UF. destruct (l_unit s) as [u|]; [|exact UF]. replace ((u =? i_size it) && (l_index s + w <=? 8 * u)) with false in UF; [exact UF|]. symmetry. destruct (Z.eqb_spec u (i_size it)) as [Eu|]; [|reflexivity]. cbn [andb] in *. apply Z.leb_gt in Ft. apply Z.leb_gt. lia. }
           destruct UF' as (NN' & UF'). destruct (i_name it) as [n|] eqn:Nm; [|congruence]. cbn [andb]. refine (fresh (Some (i_size it)) w (Some (0, w)) _ UF' _).
           ++ right. exists n. split; [reflexivity|]. split; [discriminate|reflexivity].
           ++ intros o ps e' N L. eapply l_open; [exact Wd|exact Nm|lia|exact NF|exact A|exact N|exact L].
    + cbn [unnamed_fit] in UF. rewrite Wd in UF. refine (fresh None 0 None (or_introl eq_refl) UF _). intros o ps e' N L. eapply l_member; [exact Wd|exact A|exact N|exact L].
Qed.

Theorem struct_ok : forall declspec items, power_of_two declspec -> Forall proper items -> unnamed_fit None items -> declspec + needs items < 2 ^ 62 ->
  match compound false packed pragma declspec items with
  | Done (size, align, ms) => exists ps e, laid packed pragma 0 None items ps e /\ map strip ms = flat_map contributes ps /\ strictest packed pragma declspec ps align /\ next_offset e align size
  | Reported => True
  | Crash => False
  end.
Proof.
  intros d items D F UF B. assert (1 <= d) by (apply power_pos, D). assert (NS := needs_nonneg items F).
  assert (G := declare_all_ok items (mklayout 0 d None 0 []) F UF I ltac:(cbn; lia) ltac:(cbn [l_size]; lia) D). unfold compound. destruct (declare_all false packed pragma _ items) as [s| |]; cbn [obind result] in *; [|exact I|exact G].
  destruct G as (ps & L & M & St & PA & Bd). cbn [l_size l_members map app unit_of l_unit l_align] in *.
  assert (A62 : l_align s <= 2 ^ 62). { destruct St as (_ & _ & [->|(p & I & A)]); [lia|]. assert (In (p_item p) items). { clear -L I. induction L; cbn [In] in *; try (right; auto; fail); try contradiction; destruct I as [<-|I]; cbn [p_item]; auto. }
    rewrite Forall_forall in F. destruct (decl_alignment_ok (p_item p) (F _ H0)) as (A' & _ & Le). rewrite (aligned_unique _ _ _ A A'). assert (need (p_item p) <= needs items); [|assert (Sz := proj1 (F _ H0)); unfold need in *; lia].
    clear -F H0. induction items as [|x l IH]; [destruct H0|]. change (needs (x :: l)) with (need x + needs l). assert (0 <= need x) by (apply need_nonneg, F; left; reflexivity). assert (0 <= needs l) by (apply needs_nonneg, Forall_forall; intros y Y; apply F; right; exact Y). destruct H0 as [<-|H0]; [lia|]. specialize (IH (fun y Y => F y (or_intror Y)) H0). lia. }
  assert (1 <= l_align s) by (apply power_pos, PA). assert (P : is_power_of_two (l_align s) = true) by (apply is_pow2_spec; [lia|exact PA]). rewrite P. destruct (Z.leb_spec 0 (l_size s)); [|lia]. cbn [negb orb].
  exists ps, (l_size s). split; [exact L|]. split; [exact M|]. split; [exact St|]. apply align_with_mask_ok; [lia|exact PA|lia].
Qed.
End P.

(** ** What the rules imply *)
Section R.
Variables (packed : bool) (pragma : Z).
Hypothesis PR : power_of_two pragma.

Definition start (e : Z) (u : option (Z * Z)) : Z := match u with None => 8 * e | Some (size, used) => 8 * (e - size) + used end.
Definition sane (e : Z) (u : option (Z * Z)) : Prop := 0 <= e /\ match u with None => True | Some (size, used) => size <= e /\ 0 <= used <= 8 * size end.

Lemma aligned_pos : forall it a, proper it -> aligned_as packed pragma it a -> 1 <= a.
Proof. intros it a P A. destruct (decl_alignment_ok packed pragma PR it P) as (A' & Q & _). rewrite (aligned_unique _ _ _ _ _ A A'). apply power_pos, Q. Qed.

Lemma laid_sorted : forall e u items ps e', laid packed pragma e u items ps e' -> Forall proper items -> sane e u ->
  StronglySorted (fun p q => end_bit p <= first_bit q) ps /\ Forall (fun p => start e u <= first_bit p /\ end_bit p <= 8 * e' /\ 0 <= p_offset p) ps /\ e <= e'.
Proof.
  intros e u items ps e' L. induction L as [e u|e u it items a o ps e' W A N L IH|e size used it items w n ps e' W Nm W0 Ft L IH|e size used it items w ps e' W Nm W0 Ft L IH|e u it items w n a o ps e' W Nm W0 Ft A N L IH|e u it items w a o ps e' W Nm W0 Ft A N L IH|e u it items ps e' W Nm L IH]; intros F Sn.
  - split; [constructor|]. split; [constructor|lia].
  - inversion_clear F as [|? ? P F']. assert (a1 := aligned_pos _ _ P A). assert (R := next_offset_range _ _ _ a1 N). assert (S0 := proj1 P). destruct Sn as (E0 & U0). destruct (IH F') as (I1 & I2 & I3); [split; [lia|exact I]|].
    assert (start e u <= 8 * e) by (unfold start; destruct u as [(sz, us)|]; lia). split; [|split; [|lia]].
    + constructor; [exact I1|]. eapply Forall_impl; [|exact I2]. intros p (Q1 & Q2 & Q3). unfold end_bit. cbn [p_bits p_offset p_item start] in *. lia.
    + constructor; [unfold first_bit, end_bit; cbn [p_bits p_offset p_item]; lia|]. eapply Forall_impl; [|exact I2]. intros p (Q1 & Q2 & Q3). cbn [start] in *. lia.
  - inversion_clear F as [|? ? P F']. destruct Sn as (E0 & U0). destruct Ft as (Fs & Ft). destruct (IH F') as (I1 & I2 & I3); [split; lia|]. split; [|split; [|lia]].
    + constructor; [exact I1|]. eapply Forall_impl; [|exact I2]. intros p (Q1 & Q2 & Q3). unfold end_bit. cbn [p_bits p_offset p_item start] in *. lia.
    + constructor; [unfold first_bit, end_bit; cbn [p_bits p_offset p_item start]; lia|]. eapply Forall_impl; [|exact I2]. intros p (Q1 & Q2 & Q3). cbn [start] in *. lia.
  - inversion_clear F as [|? ? P F']. destruct Sn as (E0 & U0). destruct Ft as (Fs & Ft). destruct (IH F') as (I1 & I2 & I3); [split; lia|]. split; [exact I1|]. split; [|lia]. eapply Forall_impl; [|exact I2]. intros p (Q1 & Q2 & Q3). cbn [start] in *. lia.
  - inversion_clear F as [|? ? P F']. assert (a1 := aligned_pos _ _ P A). assert (R := next_offset_range _ _ _ a1 N). assert (S0 := proj1 P). destruct Sn as (E0 & U0). destruct (IH F') as (I1 & I2 & I3); [split; lia|].
    assert (start e u <= 8 * e) by (unfold start; destruct u as [(sz, us)|]; lia). split; [|split; [|lia]].
    + constructor; [exact I1|]. eapply Forall_impl; [|exact I2]. intros p (Q1 & Q2 & Q3). unfold end_bit. cbn [p_bits p_offset p_item start] in *. lia.
    + constructor; [unfold first_bit, end_bit; cbn [p_bits p_offset p_item]; lia|]. eapply Forall_impl; [|exact I2]. intros p (Q1 & Q2 & Q3). cbn [start] in *. lia.
  - inversion_clear F as [|? ? P F']. assert (a1 := aligned_pos _ _ P A). assert (R := next_offset_range _ _ _ a1 N). assert (S0 := proj1 P). destruct Sn as (E0 & U0). destruct (IH F') as (I1 & I2 & I3); [split; lia|].
    assert (start e u <= 8 * e) by (unfold start; destruct u as [(sz, us)|]; lia). split; [exact I1|]. split; [|lia]. eapply Forall_impl; [|exact I2]. intros p (Q1 & Q2 & Q3). cbn [start] in *. lia.
  - inversion_clear F as [|? ? P F']. destruct Sn as (E0 & U0). destruct (IH F') as (I1 & I2 & I3); [split; [lia|exact I]|]. assert (start e u <= 8 * e) by (unfold start; destruct u as [(sz, us)|]; lia). split; [exact I1|]. split; [|lia]. eapply Forall_impl; [|exact I2]. intros p (Q1 & Q2 & Q3). cbn [start] in *. lia.
Qed.

Lemma bits_alignment : forall it a, plain_bits it -> i_width it <> None -> aligned_as packed pragma it a -> a = if packed then 1 else Z.min (i_size it) pragma.
Proof. intros it a P W A. destruct (P W) as (E1 & E2 & E3). inversion A as [H|H1 H2|H1 H2 H3|H1 H2 H3]; [contradiction|rewrite H2; reflexivity|congruence|rewrite H2, E3; reflexivity]. Qed.

Lemma laid_aligned : forall e u items ps e', laid packed pragma e u items ps e' -> Forall plain_bits items ->
  match u with None => True | Some (size, _) => ((if packed then 1 else Z.min size pragma) | e - size) end -> Forall (fun p => forall a, aligned_as packed pragma (p_item p) a -> (a | p_offset p)) ps.
Proof.
  intros e u items ps e' L. induction L as [e u|e u it items a o ps e' W A N L IH|e size used it items w n ps e' W Nm W0 Ft L IH|e size used it items w ps e' W Nm W0 Ft L IH|e u it items w n a o ps e' W Nm W0 Ft A N L IH|e u it items w a o ps e' W Nm W0 Ft A N L IH|e u it items ps e' W Nm L IH]; intros F Sn; [constructor|inversion_clear F as [|? ? P F']..].
  - constructor; [|apply IH; [exact F'|exact I]]. intros b B. cbn [p_item p_offset] in *. rewrite (aligned_unique _ _ _ _ _ B A). exact (proj2 (proj1 N)).
  - constructor; [|apply IH; [exact F'|exact Sn]]. intros b B. cbn [p_item p_offset] in *. rewrite (bits_alignment it b P ltac:(congruence) B). destruct Ft as (<- & _). exact Sn.
  - apply IH; [exact F'|exact Sn].
  - constructor. { intros b B. cbn [p_item p_offset] in *. rewrite (aligned_unique _ _ _ _ _ B A). exact (proj2 (proj1 N)). }
    apply IH; [exact F'|]. replace (o + i_size it - i_size it) with o by lia. rewrite <- (bits_alignment it a P ltac:(congruence) A). exact (proj2 (proj1 N)).
  - apply IH; [exact F'|]. replace (o + i_size it - i_size it) with o by lia. rewrite <- (bits_alignment it a P ltac:(congruence) A). exact (proj2 (proj1 N)).
  - apply IH; [exact F'|exact I].
Qed.
End R.

(** ** Unions *)
Section U.
Variables (packed : bool) (pragma : Z).
Hypothesis PR : power_of_two pragma.
Definition at_zero (items : list item) : list placement := map (fun it => mkplacement it 0 None) items.
Definition largest (items : list item) : Z := fold_right Z.max 0 (map i_size items).

Lemma union_all : forall items s, Forall proper items -> Forall (fun it => i_width it = None) items -> power_of_two (l_align s) -> 0 <= l_size s ->
  match declare_all true packed pragma s items with
  | Done s' => map strip (l_members s') = map strip (l_members s) ++ flat_map contributes (at_zero items) /\ strictest packed pragma (l_align s) (at_zero items) (l_align s') /\
      power_of_two (l_align s') /\ l_size s' = Z.max (largest items) (l_size s)
  | Reported => True
  | Crash => False
  end.
Proof.
  induction items as [|it items IH]; intros s F W PA S.
  - cbn. rewrite app_nil_r. split; [reflexivity|]. split; [apply strictest_nil|]. split; [exact PA|lia].
  - inversion_clear F as [|? ? P F']. inversion_clear W as [|? ? W1 W2]. destruct (decl_alignment_ok packed pragma PR it P) as (A & Q & _). cbn [declare_all]. unfold declare. rewrite W1. unfold place, offset_for. cbn [obind set_unit l_members l_size l_align].
    destruct (register it None 0 (l_members s)) as [ms| |] eqn:Rg; cbn [obind]; [|exact I|exact (register_no_crash _ _ _ _ Rg)]. set (s1 := mklayout _ _ _ _ _).
    assert (G := IH s1 F' W2 (power_max _ _ Q PA) ltac:(cbn [s1 l_size]; lia)). destruct (declare_all true packed pragma s1 items) as [s'| |]; [|exact I|exact G]. destruct G as (M & St & PA' & Sz). cbn [s1 l_members l_align l_size] in *.
    split; [|split; [|split; [exact PA'|]]].
    + rewrite M. apply register_ok in Rg. rewrite Rg. cbn [at_zero map flat_map]. rewrite <- app_assoc. reflexivity.
    + eapply strictest_cons; eassumption.
    + rewrite Sz. cbn [largest map fold_right]. unfold largest. lia.
Qed.

Theorem union_ok : forall declspec items, power_of_two declspec -> Forall proper items -> Forall (fun it => i_width it = None) items -> declspec + needs items < 2 ^ 62 ->
  match compound true packed pragma declspec items with
  | Done (size, align, ms) => map strip ms = flat_map contributes (at_zero items) /\ strictest packed pragma declspec (at_zero items) align /\ next_offset (largest items) align size
  | Reported => True
  | Crash => False
  end.
Proof.
  intros d items D F W B. assert (1 <= d) by (apply power_pos, D). assert (NS := needs_nonneg items F).
  assert (G := union_all items (mklayout 0 d None 0 []) F W D ltac:(cbn; lia)). unfold compound. destruct (declare_all true packed pragma _ items) as [s| |]; cbn [obind] in *; [|exact I|exact G].
  destruct G as (M & St & PA & Sz). cbn [l_size l_members map app l_align] in *.
  assert (Le : forall it, In it items -> need it <= needs items). { clear -F. rewrite Forall_forall in F. induction items as [|x l IH]; [intros it []|]. change (needs (x :: l)) with (need x + needs l). assert (0 <= need x) by (apply need_nonneg, F; left; reflexivity). assert (0 <= needs l) by (apply needs_nonneg, Forall_forall; intros y Y; apply F; right; exact Y). intros it [<-|I]; [lia|]. specialize (IH (fun y Y => F y (or_intror Y)) it I). lia. }
  assert (Lg : 0 <= largest items <= needs items). { clear -F. induction F as [|x l P F IH]; [cbn; lia|]. change (needs (x :: l)) with (need x + needs l). change (largest (x :: l)) with (Z.max (i_size x) (largest l)). assert (N := needs_nonneg l F). assert (0 <= i_size x <= need x); [|lia]. destruct P as (P0 & P1 & P2). apply power_pos in P1. unfold need. destruct P2 as [->|P2]; [lia|apply power_pos in P2; lia]. }
  assert (A62 : l_align s <= 2 ^ 62). { destruct St as (_ & _ & [->|(p & I & A)]); [lia|]. apply in_map_iff in I as (it & <- & I). cbn [p_item] in A. rewrite Forall_forall in F. destruct (decl_alignment_ok packed pragma PR it (F _ I)) as (A' & _ & Lb). rewrite (aligned_unique _ _ _ _ _ A A'). assert (L1 := Le it I). assert (Sz0 := proj1 (F _ I)). unfold need in *. lia. }
  assert (1 <= l_align s) by (apply power_pos, PA). assert (P : is_power_of_two (l_align s) = true) by (apply is_pow2_spec; [lia|exact PA]). rewrite P. destruct (Z.leb_spec 0 (l_size s)); [|lia]. cbn [negb orb].
  split; [exact M|]. split; [exact St|]. replace (largest items) with (l_size s) by lia. apply align_with_mask_ok; [lia|exact PA|lia].
Qed.
End U.

(** ** Declarations without an error are accepted *)
Definition names (l : list member) : list nat := flat_map (fun m => name_list (m_name m)) l.
Lemma has_in : forall n l, has_member n l = true <-> In n (names l).
Proof.
  intros n l. unfold has_member, names. rewrite existsb_exists, in_flat_map. split; intros (m & I & E); exists m; (split; [exact I|]); destruct (m_name m) as [k|]; cbn in *.
  - left. apply Nat.eqb_eq, E.
  - discriminate.
  - destruct E as [->|[]]. apply Nat.eqb_refl.
  - destruct E.
Qed.
Lemma names_app : forall a b, names (a ++ b) = names a ++ names b.
Proof. intros. apply flat_map_app. Qed.
Lemma nodup_middle : forall (a : list nat) x b, NoDup (a ++ x :: b) -> ~ In x a.
Proof. intros a x b N I. apply NoDup_remove_2 in N. apply N, in_or_app. left. exact I. Qed.

Lemma nested_accepted : forall u o ms l, NoDup (names l ++ names ms) -> exists l', register_nested u o ms l = Done l' /\ names l' = names l ++ names ms.
Proof.
  intros u o ms. induction ms as [|m ms IH]; intros l N; cbn [register_nested]; [exists l; split; [reflexivity|cbn; rewrite app_nil_r; reflexivity]|].
  change (names (m :: ms)) with (name_list (m_name m) ++ names ms) in *. assert (H : match m_name m with Some n => has_member n l | None => false end = false).
  { destruct (m_name m) as [n|]; [|reflexivity]. destruct (has_member n l) eqn:E; [|reflexivity]. apply has_in in E. exfalso. exact (nodup_middle _ _ _ N E). }
  rewrite H. set (l1 := l ++ [_]). assert (E1 : names l1 = names l ++ name_list (m_name m)) by (unfold l1; rewrite names_app; cbn; rewrite app_nil_r; reflexivity).
  destruct (IH l1) as (l' & E & El); [rewrite E1, <- app_assoc; exact N|]. exists l'. split; [exact E|]. rewrite El, E1, <- app_assoc. reflexivity.
Qed.

Lemma accepted : forall u packed pragma items s, Forall valid items -> NoDup (names (l_members s) ++ flat_map names_of items) -> declare_all u packed pragma s items <> Reported.
Proof.
  intros u packed pragma items. induction items as [|it items IH]; intros s F N; cbn [declare_all]; [discriminate|]. inversion_clear F as [|? ? V F'].
  assert (pl : forall s0 bits sh, l_members s0 = l_members s -> (i_name it <> None \/ i_width it = None /\ i_nested it <> None) -> obind (place u packed pragma s0 it bits sh) (fun s => declare_all u packed pragma s items) <> Reported).
  { intros s0 bits sh E C. unfold place. assert (O : offset_for u packed pragma s0 it sh <> Reported).
    { unfold offset_for. destruct sh; [destruct (rev _) as [|m ?]; [discriminate|destruct (m_bits m); discriminate]|]. destruct u; [discriminate|]. unfold align_up. destruct (is_power_of_two _); cbn [obind]; [|discriminate]. destruct (_ <? 2 ^ 63); discriminate. }
    destruct (offset_for u packed pragma s0 it sh) as [(o, z)| |]; cbn [obind]; [|congruence|discriminate]. rewrite E.
    assert (R : exists l', register it bits o (l_members s) = Done l' /\ names l' = names (l_members s) ++ names_of it).
    { unfold register, names_of. cbn [flat_map] in N. unfold names_of at 1 in N. destruct (i_name it) as [n|].
      - destruct (has_member n (l_members s)) eqn:H; [apply has_in in H; exfalso; exact (nodup_middle _ _ _ N H)|]. eexists. split; [reflexivity|]. rewrite names_app. reflexivity.
      - destruct C as [C|(C1 & C2)]; [congruence|]. rewrite C1 in *. destruct (i_nested it) as [(v, ms)|]; [|congruence]. change (flat_map (fun m => name_list (m_name m)) ms) with (names ms) in *.
        assert (X : names (l_members s ++ [mkmember None (i_size it) bits o (Z.of_nat (length ms) + 1)]) = names (l_members s)) by (rewrite names_app; cbn; apply app_nil_r).
        destruct (nested_accepted v o ms (l_members s ++ [mkmember None (i_size it) bits o (Z.of_nat (length ms) + 1)])) as (l' & El & Nl); [rewrite X; rewrite app_assoc in N; revert N; generalize (names (l_members s) ++ names ms); intros k K; clear -K; induction k as [|x k IHk]; [constructor|inversion_clear K as [|? ? K1 K2]; constructor; [intro J; apply K1, in_or_app; left; exact J|apply IHk, K2]]|].
        exists l'. split; [exact El|]. rewrite Nl, X. reflexivity. }
    destruct R as (l' & -> & Nl). cbn [obind]. apply IH; [exact F'|]. cbn [l_members]. rewrite Nl, <- app_assoc. exact N. }
  unfold declare. unfold valid in V. destruct (i_width it) as [w|] eqn:W.
  - destruct V as (V1 & V2 & V3). rewrite V1. cbn [negb orb]. destruct (Z.ltb_spec w 0); [lia|]. 
    assert (N' : i_name it = None -> NoDup (names (l_members s) ++ flat_map names_of items)) by (intro E; cbn [flat_map] in N; unfold names_of at 1 in N; rewrite E, W in N; exact N).
    destruct (Z.eqb_spec w 0) as [->|W0]; [rewrite (V3 eq_refl); cbn [obind]; apply IH; [exact F'|exact (N' (V3 eq_refl))]|]. destruct (Z.ltb_spec (i_size it * 8) w); [lia|].
    destruct (i_name it) as [n|] eqn:Nm.
    + apply pl; [destruct (match l_unit s with Some _ => _ | None => _ end); reflexivity|left; congruence].
    + cbn [obind]. apply IH; [exact F'|]. destruct (match l_unit s with Some _ => _ | None => _ end); exact (N' eq_refl).
  - apply pl; [reflexivity|]. destruct V as [V|V]; [left; exact V|right; split; [reflexivity|exact V]].
Qed.

(** ** Errors are diagnosed *)
Lemma nodup_snoc : forall l (n : nat), NoDup l -> ~ In n l -> NoDup (l ++ [n]).
Proof.
  induction l as [|x l IH]; intros n N I; cbn [app]; [constructor; [intros []|constructor]|]. inversion_clear N as [|? ? N1 N2]. constructor; [|apply IH; [exact N2|intro J; apply I; right; exact J]].
  intro J. apply in_app_or in J as [J|[J|[]]]; [exact (N1 J)|apply I; left; symmetry; exact J].
Qed.
Lemma snoc_names : forall l m, NoDup (names l) -> match m_name m with Some n => has_member n l | None => false end = false -> NoDup (names (l ++ [m])).
Proof.
  intros l m N H. rewrite names_app. cbn [names flat_map]. rewrite app_nil_r. destruct (m_name m) as [n|]; cbn [name_list]; [|rewrite app_nil_r; exact N]. apply nodup_snoc; [exact N|]. rewrite <- has_in, H. discriminate.
Qed.
Lemma nested_nodup : forall u o ms l l', register_nested u o ms l = Done l' -> NoDup (names l) -> NoDup (names l').
Proof.
  intros u o ms. induction ms as [|m ms IH]; intros l l' E N; cbn [register_nested] in E; [injection E as <-; exact N|]. destruct (match m_name m with Some n => has_member n l | None => false end) eqn:H; [discriminate|].
  apply IH in E; [exact E|]. apply snoc_names; [exact N|exact H].
Qed.
Lemma register_nodup : forall it bits o l l', register it bits o l = Done l' -> NoDup (names l) -> NoDup (names l') /\ (i_name it <> None \/ i_nested it <> None).
Proof.
  intros it bits o l l' E N. unfold register in E. destruct (i_name it) as [n|].
  - destruct (has_member n l) eqn:H; [discriminate|]. injection E as <-. split; [apply snoc_names; [exact N|exact H]|left; discriminate].
  - destruct (i_nested it) as [(u, ms)|]; [|discriminate]. split; [|right; discriminate]. eapply nested_nodup; [exact E|]. apply snoc_names; [exact N|reflexivity].
Qed.
Lemma declare_checks : forall u packed pragma items s s', Forall proper items -> declare_all u packed pragma s items = Done s' -> NoDup (names (l_members s)) -> NoDup (names (l_members s')) /\ Forall valid items.
Proof.
  intros u packed pragma items. induction items as [|it items IH]; intros s s' F E N; cbn [declare_all] in E; [injection E as <-; split; [exact N|constructor]|].
  inversion_clear F as [|? ? Pr F']. destruct (declare u packed pragma s it) as [s1| |] eqn:D; cbn [obind] in E; try discriminate. assert (G : NoDup (names (l_members s1)) /\ valid it); [|destruct G as (G1 & G2); destruct (IH _ _ F' E G1); split; [assumption|constructor; assumption]].
  assert (pl : forall s0 bits sh, l_members s0 = l_members s -> place u packed pragma s0 it bits sh = Done s1 -> NoDup (names (l_members s1)) /\ (i_name it <> None \/ i_nested it <> None)).
  { intros s0 bits sh E0 P. unfold place in P. destruct (offset_for u packed pragma s0 it sh) as [(o, z)| |]; cbn [obind] in P; try discriminate. rewrite E0 in P. destruct (register it bits o (l_members s)) as [ms| |] eqn:R; cbn [obind] in P; try discriminate. injection P as <-. cbn [l_members]. exact (register_nodup _ _ _ _ _ R N). }
  unfold declare in D. unfold valid. destruct (i_width it) as [w|].
  - destruct (i_integer it) eqn:It; cbn [negb orb] in D; [|discriminate]. destruct (Z.ltb_spec w 0); [discriminate|]. destruct (Z.eqb_spec w 0) as [W0|W0].
    + destruct (i_name it); [discriminate|]. injection D as <-. split; [exact N|]. split; [reflexivity|]. split; [|reflexivity]. assert (S0 := proj1 Pr). lia.
    + destruct (Z.ltb_spec (i_size it * 8) w); [discriminate|]. assert (V : true = true /\ 0 <= w <= 8 * i_size it /\ (w = 0 -> i_name it = None)) by (split; [reflexivity|split; [lia|contradiction]]).
      destruct (i_name it) as [n|] eqn:Nm; [|injection D as <-; split; [destruct (match l_unit s with Some _ => _ | None => _ end); exact N|exact V]].
      split; [|exact V]. refine (proj1 (pl _ _ _ _ D)). destruct (match l_unit s with Some _ => _ | None => _ end); reflexivity.
  - destruct (pl (set_unit s None 0) _ _ eq_refl D) as (P1 & P2). split; [exact P1|exact P2].
Qed.
