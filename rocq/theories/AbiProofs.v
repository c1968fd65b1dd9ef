(** Proofs for C47. *)
From Coq Require Import List ZArith Bool Lia.
From Verif Require Import AbiSpec AbiModel.
Import ListNotations.
Open Scope Z_scope.

Ltac Zify.zify_post_hook ::= Z.to_euclidean_division_equations.

Lemma big_or_odd : forall n, 0 < n -> size_is_big_or_oddly_sized n = negb (existsb (Z.eqb n) [1; 2; 4; 8]).
Proof.
  intros n H. unfold size_is_big_or_oddly_sized. cbn [existsb].
  destruct (Z.ltb_spec 8 n).
  - cbn [orb]. symmetry. rewrite (proj2 (Z.eqb_neq n 1)), (proj2 (Z.eqb_neq n 2)), (proj2 (Z.eqb_neq n 4)), (proj2 (Z.eqb_neq n 8)) by lia. reflexivity.
  - assert (n = 1 \/ n = 2 \/ n = 3 \/ n = 4 \/ n = 5 \/ n = 6 \/ n = 7 \/ n = 8) as D by lia.
    repeat (destruct D as [-> | D]; [ reflexivity |]). subst. reflexivity.
Qed.

Lemma reference : forall t, ordinary t -> size_is_big_or_oddly_sized (type_size t) = by_reference t.
Proof.
  intros [n | | | n | n] H; cbn [ordinary type_size by_reference] in *; try reflexivity.
  - destruct H as [<- | [<- | [<- | [<- | []]]]]; reflexivity.
  - apply big_or_odd, H.
  - destruct H as [<- | [<- | [<- | [<- | []]]]]; reflexivity.
Qed.

Lemma hidden_return : forall t, ordinary t -> type_is_returned_by_address t = hidden_pointer t.
Proof.
  intros [n | | | n | n] H; cbn [ordinary hidden_pointer] in *; unfold type_is_returned_by_address; cbn [is_intrin_type type_size]; try reflexivity.
  - destruct H as [<- | [<- | [<- | [<- | []]]]]; reflexivity.
  - apply big_or_odd, H.
Qed.

(** ** The caller *)
Definition put (p : place) (v : Z) (m : machine) : machine :=
  match p with
  | In_register r => set_gpr r v m
  | In_xmm r => set_xmm r v m
  | On_stack offset => store (gpr m rsp + offset) v m
  end.

Lemma position_bool : forall (b : bool) i, (if b then S i else i) = (Nat.b2n b + i)%nat.
Proof. intros [|] i; reflexivity. Qed.

Lemma pass_put : forall b ps i a m, ordinary (of_type a) -> pass_argument b ps i a m = put (argument_place b ps i) (passed a) m.
Proof.
  intros b ps i a m H. unfold pass_argument, argument_place, passed. rewrite (reference _ H), position_bool.
  set (w := if by_reference (of_type a) then copy a else value a). set (q := (Nat.b2n b + i)%nat).
  destruct q as [|[|[|[|q]]]]; cbn [Nat.leb position_place put];
    try (destruct (nth_error ps i) as [[ | | | | ]|]; reflexivity).
  f_equal. lia.
Qed.

Definition argument_registers : list Z := [1; 2; 8; 9].

Lemma put_rsp : forall f q v m, gpr (put (position_place f q) v m) rsp = gpr m rsp.
Proof. intros f [|[|[|[|q]]]] v m; destruct f; reflexivity. Qed.

Lemma put_same : forall f q v m, contents (put (position_place f q) v m) (gpr m rsp) (position_place f q) = v.
Proof.
  intros f [|[|[|[|q]]]] v m; destruct f; cbn [position_place put contents set_gpr set_xmm store gpr xmm stack]; rewrite ?Z.eqb_refl; reflexivity.
Qed.

Lemma put_other : forall f q g p v m, q <> p -> contents (put (position_place f q) v m) (gpr m rsp) (position_place g p) = contents m (gpr m rsp) (position_place g p).
Proof.
  intros f q g p v m N.
  destruct q as [|[|[|[|q]]]], p as [|[|[|[|p]]]]; try congruence; destruct f, g; try reflexivity;
    cbn [position_place put contents store stack]; destruct (Z.eqb_spec (gpr m rsp + 8 * Z.of_nat (S (S (S (S p))))) (gpr m rsp + 8 * Z.of_nat (S (S (S (S q)))))); try reflexivity; lia.
Qed.

Lemma pass_rsp : forall b ps args i m, Forall (fun a => ordinary (of_type a)) args -> gpr (pass_arguments b ps i args m) rsp = gpr m rsp.
Proof.
  intros b ps. induction args as [|a args IH]; intros i m H; [ reflexivity |]. inversion H; subst.
  cbn [pass_arguments]. rewrite pass_put by assumption. unfold argument_place. rewrite put_rsp. apply IH. assumption.
Qed.

Lemma pass_places : forall b ps args i m k a, Forall (fun a => ordinary (of_type a)) args -> nth_error args k = Some a ->
  contents (pass_arguments b ps i args m) (gpr m rsp) (argument_place b ps (i + k)) = passed a.
Proof.
  intros b ps. induction args as [|a0 args IH]; intros i m k a H E; [ destruct k; discriminate |]. inversion H as [|x l H1 H2]; subst.
  cbn [pass_arguments]. rewrite pass_put by assumption.
  rewrite <- (pass_rsp b ps args (S i) m H2). unfold argument_place. destruct k as [|k].
  - injection E as ->. rewrite Nat.add_0_r. apply put_same.
  - rewrite put_other by (destruct b; lia). cbn [nth_error] in E. specialize (IH (S i) m k a H2 E).
    unfold argument_place in IH. rewrite (pass_rsp b ps args (S i) m H2). replace (i + S k)%nat with (S i + k)%nat by lia. exact IH.
Qed.

Lemma prepare_spec : forall r ps args ra m, ordinary r -> Forall (fun a => ordinary (of_type a)) args ->
  let m' := prepare_call r ps args ra m in
  gpr m' rsp = gpr m rsp /\ (hidden_pointer r = true -> gpr m' 1 = ra) /\
  forall k a, nth_error args k = Some a -> contents m' (gpr m rsp) (argument_place (hidden_pointer r) ps k) = passed a.
Proof.
  intros r ps args ra m R H. cbv zeta. unfold prepare_call. rewrite (hidden_return _ R).
  pose proof (pass_rsp (hidden_pointer r) ps args 0 m H) as P.
  destruct (hidden_pointer r) eqn:B.
  - split; [| split ].
    + exact P.
    + intros _. reflexivity.
    + intros k a E. pose proof (pass_places true ps args 0 m k a H E) as Q. cbn [Nat.add] in Q. rewrite <- Q.
      unfold argument_place. destruct k as [|[|[|k]]]; destruct (is_floating (nth_error ps _)); reflexivity.
  - split; [ exact P | split ]; [ discriminate |].
    intros k a E. exact (pass_places false ps args 0 m k a H E).
Qed.

(** ** The callee *)
Definition kind_of (t : option type) : register_kind := if is_floating t then Kxmm else Kgpr.

Definition kind_at (big : bool) (it : list type) (j : nat) : register_kind :=
  if big then match j with O => Kgpr | S j => kind_of (nth_error it j) end else kind_of (nth_error it j).

Lemma home_spec : forall fuel va big i it m offs m',
  home_arguments fuel va big i (- 32 - 8 * Z.of_nat i) it m = (offs, m') ->
  (4 - i + length it < fuel)%nat -> (big = true -> (i < 4)%nat) ->
  gpr m' = gpr m /\ xmm m' = xmm m /\
  offs = map (fun k => - 32 - 8 * Z.of_nat (i + Nat.b2n big + k)) (seq 0 (length it)) /\
  (forall a, a < gpr m rbp + 32 + 8 * Z.of_nat i -> stack m' a = stack m a) /\
  forall j, stack m' (gpr m rbp + 32 + 8 * Z.of_nat (i + j)) =
    if ((i + j <? 4)%nat && ((j <? Nat.b2n big + length it)%nat || va))%bool
    then register (kind_at big it j) (argument_register (kind_at big it j) (i + j)) m
    else stack m (gpr m rbp + 32 + 8 * Z.of_nat (i + j)).
Proof.
  induction fuel as [|fuel IH]; intros va big i it m offs m' E F B; [ lia |].
  cbn [home_arguments] in E.
  destruct (negb ((i <? 4)%nat || negb (match it with [] => true | _ => false end))) eqn:C1.
  { injection E as <- <-. apply negb_true_iff, orb_false_iff in C1. destruct C1 as [C1 C2]. apply Nat.ltb_ge in C1.
    destruct it; [| discriminate ]. destruct big; [ specialize (B eq_refl); lia |].
    repeat split. intros j. destruct (Nat.ltb_spec (i + j) 4); [ lia | reflexivity ]. }
  destruct (negb big && (match it with [] => true | _ => false end) && negb va) eqn:C2.
  { injection E as <- <-. apply andb_true_iff in C2. destruct C2 as [C2 V]. apply andb_true_iff in C2. destruct C2 as [C2 C3].
    destruct big; [ discriminate |]. destruct it; [| discriminate ]. destruct va; [ discriminate |].
    repeat split. intros j. cbn [Nat.b2n length Nat.add]. rewrite Bool.orb_false_r. replace (j <? 0)%nat with false by (symmetry; apply Nat.ltb_ge; lia).
    rewrite andb_false_r. reflexivity. }
  match type of E with context [if (i <? 4)%nat then ?x else m] => set (m1 := if (i <? 4)%nat then x else m) in * end.
  assert (G1 : gpr m1 = gpr m) by (unfold m1; destruct (i <? 4)%nat; reflexivity).
  assert (X1 : xmm m1 = xmm m) by (unfold m1; destruct (i <? 4)%nat; reflexivity).
  assert (N1 : forall a, a <> gpr m rbp + 32 + 8 * Z.of_nat i -> stack m1 a = stack m a).
  { intros a N. unfold m1. destruct (i <? 4)%nat; [| reflexivity ]. cbn [store stack].
    destruct (Z.eqb_spec a (gpr m rbp - (- 32 - 8 * Z.of_nat i))); [ lia | reflexivity ]. }
  assert (V1 : stack m1 (gpr m rbp + 32 + 8 * Z.of_nat i) =
    if (i <? 4)%nat then register (kind_at big it 0) (argument_register (kind_at big it 0) i) m else stack m (gpr m rbp + 32 + 8 * Z.of_nat i)).
  { unfold m1. destruct (i <? 4)%nat; [| reflexivity ]. cbn [store stack].
    rewrite (proj2 (Z.eqb_eq _ _)) by lia.
    destruct it as [|t it]; cbn [kind_at nth_error]; destruct big; try reflexivity. unfold kind_of, is_floating. destruct t; reflexivity. }
  clearbody m1.
  assert (R1 : forall k r, register k r m1 = register k r m) by (intros [|] r; cbn [register]; rewrite ?G1, ?X1; reflexivity).
  replace (- 32 - 8 * Z.of_nat i - 8) with (- 32 - 8 * Z.of_nat (S i)) in E by lia.
  assert (Cont : exists big' it' offs', big' = false /\ home_arguments fuel va false (S i) (- 32 - 8 * Z.of_nat (S i)) it' m1 = (offs', m') /\
     (length it' <= length it)%nat /\ ((4 <= i)%nat -> (length it' < length it)%nat) /\
     (forall j, kind_at big it (S j) = kind_at false it' j) /\
     (Nat.b2n big + length it <= S (length it'))%nat /\
     ((i < 4)%nat -> (0 <? Nat.b2n big + length it)%nat || va = true) /\
     (va = false -> (Nat.b2n big + length it)%nat = S (length it')) /\
     (offs' = map (fun k => - 32 - 8 * Z.of_nat (S i + 0 + k)) (seq 0 (length it')) ->
      offs = map (fun k => - 32 - 8 * Z.of_nat (i + Nat.b2n big + k)) (seq 0 (length it)))).
  { exists false. destruct big.
    - specialize (B eq_refl). exists it, offs. repeat split; auto; cbn [Nat.b2n]; try lia.
      + intros ->. apply map_ext. intros k. cbn [Nat.b2n]. lia.
    - destruct it as [|t it].
      + exists [], offs. repeat split; auto; cbn [length Nat.b2n]; try lia.
        * intros Q. apply negb_false_iff, orb_true_iff in C1. destruct C1 as [C1 | C1]; [ apply Nat.ltb_lt in C1; lia | discriminate ].
        * intros j. cbn [kind_at]. destruct j; reflexivity.
        * intros Q. cbn [negb andb] in C2. destruct va; [ reflexivity | discriminate ].
        * intros ->. discriminate.
      + destruct (home_arguments fuel va false (S i) (- 32 - 8 * Z.of_nat (S i)) it m1) as [o mm] eqn:HH. assert (E1 : offs = (- 32 - 8 * Z.of_nat i) :: o) by congruence. assert (E2 : m' = mm) by congruence. subst offs m'. clear E.
        exists it, o. repeat split; auto; cbn [length Nat.b2n]; try lia.
        intros ->. cbn [seq map]. f_equal; [ lia |].
        rewrite <- seq_shift, map_map. apply map_ext. intros k. lia. }
  destruct Cont as [big' [it' [offs' [-> [HH [L1 [L2 [K [L3 [L4 [L5 O1]]]]]]]]]]].
  destruct (IH va false (S i) it' m1 offs' m' HH) as [G [X [OO [ST SV]]]].
  { destruct (Nat.lt_ge_cases i 4) as [Q | Q]; [ lia | specialize (L2 Q); lia ]. }
  { discriminate. }
  rewrite G1 in ST, SV.
  split; [ congruence | split; [ congruence | split; [ apply O1; exact OO | split ] ] ].
  - intros a A. rewrite ST by lia. apply N1. lia.
  - intros [|j].
    + rewrite Nat.add_0_r. rewrite ST by lia. rewrite V1. destruct (Nat.ltb_spec i 4) as [Q | Q]; [| reflexivity ].
      rewrite (L4 Q). reflexivity.
    + replace (i + S j)%nat with (S i + j)%nat by lia. rewrite SV, K.
      cbn [Nat.b2n Nat.add].
      assert (Cond : (j <? length it')%nat || va = ((S j <? Nat.b2n big + length it)%nat || va)).
      { destruct va; [ rewrite !orb_true_r; reflexivity |]. rewrite !orb_false_r, (L5 eq_refl). reflexivity. }
      rewrite Cond. rewrite R1. rewrite N1 by lia. reflexivity.
Qed.

Lemma enter_spec : forall r ps va m offs m', ordinary r -> enter_function r ps va m = (offs, m') ->
  let hidden := hidden_pointer r in
  let sp := gpr m rsp + 8 in
  gpr m' rsp = gpr m rsp - 24 /\ gpr m' rbp = gpr m rsp - 24 /\
  stack m' (gpr m rsp - 24) = gpr m rbp /\ stack m' (gpr m rsp - 16) = gpr m rsi /\ stack m' (gpr m rsp - 8) = gpr m rdi /\ stack m' (gpr m rsp) = stack m (gpr m rsp) /\
  length offs = length ps /\
  (forall i, (i < length ps)%nat -> gpr m' rbp - nth i offs 0 = home sp hidden i) /\
  (hidden = true -> stack m' sp = gpr m 1) /\
  forall i, (i < length ps)%nat \/ va = true -> stack m' (home sp hidden i) = contents m sp (argument_place hidden ps i).
Proof.
  intros r ps va m offs m' R E. cbv zeta. unfold enter_function in E. rewrite (hidden_return _ R) in E.
  match type of E with home_arguments _ _ _ _ _ _ ?x = _ => set (m1 := x) in * end.
  set (hidden := hidden_pointer r) in *.
  assert (P0 : gpr m1 rsp = gpr m rsp - 24).
  { change (gpr m1 rsp) with (gpr m rsp - 8 - 8 - 8). lia. }
  assert (P1 : gpr m1 rbp = gpr m rsp - 24).
  { change (gpr m1 rbp) with (gpr m rsp - 8 - 8 - 8). lia. }
  assert (P2 : xmm m1 = xmm m) by reflexivity.
  assert (P3 : forall k, In k [1; 2; 8; 9] -> gpr m1 k = gpr m k).
  { intros k [<- | [<- | [<- | [<- | []]]]]; reflexivity. }
  assert (P4 : forall a, stack m1 a = if a =? gpr m rsp - 24 then gpr m rbp else if a =? gpr m rsp - 16 then gpr m rsi else if a =? gpr m rsp - 8 then gpr m rdi else stack m a).
  { intros a.
    change (stack m1 a) with (if a =? gpr m rsp - 8 - 8 - 8 then gpr m rbp else if a =? gpr m rsp - 8 - 8 then gpr m rsi else if a =? gpr m rsp - 8 then gpr m rdi else stack m a).
    replace (gpr m rsp - 8 - 8 - 8) with (gpr m rsp - 24) by lia. replace (gpr m rsp - 8 - 8) with (gpr m rsp - 16) by lia. reflexivity. }
  clearbody m1.
  change (- (16 + 8 * amount_of_saved_registers)) with (- 32 - 8 * Z.of_nat 0) in E.
  destruct (home_spec _ _ _ _ _ _ _ _ E) as [G [X [OO [ST SV]]]].
  { lia. }
  { lia. }
  rewrite P1 in ST, SV.
  split; [ rewrite G; exact P0 |]. split; [ rewrite G; exact P1 |].
  split; [ rewrite ST, P4 by lia; rewrite Z.eqb_refl; reflexivity |].
  split; [ rewrite ST, P4 by lia; rewrite (proj2 (Z.eqb_neq _ _)) by lia; rewrite Z.eqb_refl; reflexivity |].
  split; [ rewrite ST, P4 by lia; rewrite !(proj2 (Z.eqb_neq _ _)) by lia; rewrite Z.eqb_refl; reflexivity |].
  split; [ rewrite ST, P4 by lia; rewrite !(proj2 (Z.eqb_neq _ _)) by lia; reflexivity |].
  split; [ rewrite OO, map_length, seq_length; reflexivity |].
  split.
  { intros i I. rewrite G, P1, OO.
    set (f := fun k : nat => - 32 - 8 * Z.of_nat (0 + Nat.b2n hidden + k)).
    rewrite (nth_indep _ 0 (f 0%nat)) by (rewrite map_length, seq_length; exact I).
    rewrite map_nth, seq_nth by exact I. unfold f, home. rewrite position_bool. lia. }
  split.
  { intros H. specialize (SV 0%nat). rewrite H in SV. cbn [Nat.b2n Nat.add Nat.ltb Nat.leb andb orb kind_at register argument_register nth] in SV.
    replace (gpr m rsp - 24 + 32 + 8 * Z.of_nat 0) with (gpr m rsp + 8) in SV by lia. rewrite SV. apply P3. left. reflexivity. }
  intros i I. specialize (SV (Nat.b2n hidden + i)%nat). cbn [Nat.add] in SV.
  replace (gpr m rsp - 24 + 32 + 8 * Z.of_nat (Nat.b2n hidden + i)) with (home (gpr m rsp + 8) hidden i) in SV by (unfold home; rewrite position_bool; lia).
  rewrite SV.
  assert (Cond : (Nat.b2n hidden + i <? Nat.b2n hidden + length ps)%nat || va = true).
  { destruct I as [I | ->]; [| apply orb_true_r ]. rewrite (proj2 (Nat.ltb_lt _ _)) by lia. reflexivity. }
  rewrite Cond, andb_true_r.
  assert (KK : kind_at hidden ps (Nat.b2n hidden + i) = kind_of (nth_error ps i)) by (destruct hidden; reflexivity).
  rewrite KK. unfold argument_place. rewrite position_bool. unfold kind_of.
  assert (HO : stack m1 (home (gpr m rsp + 8) hidden i) = stack m (gpr m rsp + 8 + 8 * Z.of_nat (Nat.b2n hidden + i))).
  { rewrite P4. unfold home. rewrite position_bool. rewrite !(proj2 (Z.eqb_neq _ _)) by lia. reflexivity. }
  rewrite HO.
  assert (Pre : forall k, In k [1; 2; 8; 9] -> gpr m1 k = gpr m k) by exact P3.
  destruct (Nat.b2n hidden + i)%nat as [|[|[|[|q]]]]; destruct (is_floating (nth_error ps i));
    cbn [Nat.ltb Nat.leb position_place contents register argument_register nth]; rewrite ?P2; try reflexivity; apply Pre; cbn; auto.
Qed.

(** ** The frame *)
Lemma align_bounds : forall x a, 0 < a -> x <= align_up x a < x + a /\ align_up x a mod a = 0.
Proof.
  intros x a H. unfold align_up. split; [| apply Z.mod_mul; lia ].
  pose proof (Z.div_mod (x + (a - 1)) a ltac:(lia)). pose proof (Z.mod_pos_bound (x + (a - 1)) a H). nia.
Qed.

Lemma needed_spec : forall d t n, let s := stack_memory_needed d t n in
  declarations_size d + 32 + t + 8 * n <= s /\ s mod 16 = 0.
Proof.
  intros d t n. cbv zeta. unfold stack_memory_needed. cbn [amount_of_saved_registers Z.odd].
  destruct (align_bounds (declarations_size d + 32 + t + 8 * n) 16); [ lia |]. split; [ lia | assumption ].
Qed.

Lemma temporary_spec : forall d at_ size al at' dist, 0 <= d -> 0 <= at_ -> 0 < size -> In al [1; 2; 4; 8; 16] ->
  allocate_temporary d at_ size al = (at', dist) ->
  at_ + size <= at' /\ dist = declarations_size d + at' /\ (size mod al = 0 -> dist mod al = 0).
Proof.
  intros d at_ size al at' dist D A P AL E. unfold allocate_temporary in E. injection E as <- <-.
  assert (AP : 0 < al) by (cbn in AL; lia).
  destruct (align_bounds at_ al AP) as [B M]. destruct (align_bounds d 16) as [B' M']; [ lia |].
  split; [ lia |]. split; [ reflexivity |]. intros Q. unfold declarations_size.
  apply Z.mod_divide in M; [| lia ]. apply Z.mod_divide in Q; [| lia ]. apply Z.mod_divide in M'; [| lia ].
  apply Z.mod_divide; [ lia |].
  apply Z.divide_add_r; [| apply Z.divide_add_r; assumption ].
  apply (Z.divide_trans _ 16); [| assumption ].
  cbn in AL. destruct AL as [<- | [<- | [<- | [<- | [<- | []]]]]]; [ exists 16 | exists 8 | exists 4 | exists 2 | exists 1 ]; reflexivity.
Qed.

Lemma leave_spec : forall m, leave_function m =
  (stack m (gpr m rbp + 24), snd (leave_function m)) /\
  gpr (snd (leave_function m)) rsp = gpr m rbp + 32 /\
  gpr (snd (leave_function m)) rbp = stack m (gpr m rbp) /\
  gpr (snd (leave_function m)) rsi = stack m (gpr m rbp + 8) /\
  gpr (snd (leave_function m)) rdi = stack m (gpr m rbp + 16).
Proof.
  intros m. 
  assert (A1 : fst (leave_function m) = stack m (gpr m rbp + 8 + 8 + 8)) by reflexivity.
  assert (A2 : gpr (snd (leave_function m)) rsp = gpr m rbp + 8 + 8 + 8 + 8) by reflexivity.
  assert (A3 : gpr (snd (leave_function m)) rbp = stack m (gpr m rbp)) by reflexivity.
  assert (A4 : gpr (snd (leave_function m)) rsi = stack m (gpr m rbp + 8)) by reflexivity.
  assert (A5 : gpr (snd (leave_function m)) rdi = stack m (gpr m rbp + 8 + 8)) by reflexivity.
  replace (gpr m rbp + 8 + 8 + 8 + 8) with (gpr m rbp + 32) in A2 by lia.
  replace (gpr m rbp + 8 + 8 + 8) with (gpr m rbp + 24) in A1 by lia.
  replace (gpr m rbp + 8 + 8) with (gpr m rbp + 16) in A5 by lia.
  destruct (leave_function m) as [ip mm]. cbn [fst snd] in *. subst ip. auto.
Qed.
