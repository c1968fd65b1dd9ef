(** Proofs for SleepProps.v *)
From Coq Require Import List Bool Arith Lia Permutation. Import ListNotations.
From Verif Require Import SleepSpec SleepModel.

(* ------------------------------------------------------------------ *)
(** ** Lists *)

Lemma upd_split : forall A (l : list A) i x y, nth_error l i = Some y ->
  exists a b, l = a ++ y :: b /\ length a = i /\ upd i x l = a ++ x :: b.
Proof.
  intros A l i x y H. destruct (nth_error_split l i H) as (a & b & E & L). exists a, b. repeat split; auto.
  unfold upd. rewrite E. rewrite <- L. rewrite firstn_app, firstn_all, Nat.sub_diag. cbn [firstn]. rewrite app_nil_r.
  rewrite skipn_app, skipn_all, Nat.sub_diag. reflexivity.
Qed.

Lemma upd_length : forall A (l : list A) i x, length (upd i x l) = length l.
Proof.
  intros A l i x. destruct (nth_error l i) eqn:E.
  - destruct (upd_split A l i x a E) as (u & v & -> & L & ->). rewrite !app_length. reflexivity.
  - unfold upd. apply nth_error_None in E. rewrite skipn_all2 by lia. rewrite app_nil_r, firstn_all2 by lia. reflexivity.
Qed.

Lemma upd_same : forall A (l : list A) i x y, nth_error l i = Some y -> nth_error (upd i x l) i = Some x.
Proof.
  intros. destruct (upd_split A l i x y H) as (u & v & -> & L & ->). rewrite nth_error_app2 by lia.
  rewrite L, Nat.sub_diag. reflexivity.
Qed.

Lemma upd_other : forall A (l : list A) i j x, i <> j -> nth_error (upd i x l) j = nth_error l j.
Proof.
  intros A l i j x N. destruct (nth_error l i) eqn:E.
  - destruct (upd_split A l i x a E) as (u & v & -> & L & ->).
    destruct (lt_dec j i).
    + rewrite !nth_error_app1 by lia. reflexivity.
    + rewrite !nth_error_app2 by lia. destruct (j - length u) eqn:D; [lia | reflexivity].
  - unfold upd. apply nth_error_None in E. rewrite skipn_all2 by lia. rewrite app_nil_r, firstn_all2 by lia. reflexivity.
Qed.

Lemma upd_cases : forall A (l : list A) i j x y, nth_error (upd i x l) j = Some y ->
  (i = j /\ y = x /\ j < length l) \/ (i <> j /\ nth_error l j = Some y).
Proof.
  intros A l i j x y H. destruct (Nat.eq_dec i j) as [-> | N].
  - left. assert (L : j < length l). { rewrite <- (upd_length A l j x). apply nth_error_Some. congruence. }
    destruct (nth_error l j) eqn:E; [|apply nth_error_None in E; lia].
    rewrite (upd_same A l j x a E) in H. repeat split; congruence.
  - right. split; [exact N|]. rewrite <- H. symmetry. apply upd_other. exact N.
Qed.

Fixpoint total {A} (f : A -> nat) (l : list A) : nat := match l with [] => 0 | x :: r => f x + total f r end.

Lemma total_app : forall A (f : A -> nat) a b, total f (a ++ b) = total f a + total f b.
Proof. induction a as [|x a IH]; intros b; [reflexivity|]. cbn [app total]. rewrite IH. lia. Qed.

Lemma total_upd : forall A (f : A -> nat) l i x y, nth_error l i = Some y -> total f (upd i x l) + f y = total f l + f x.
Proof.
  intros. destruct (upd_split A l i x y H) as (u & v & -> & L & ->). rewrite !total_app. cbn [total]. lia.
Qed.

Lemma total_in : forall A (f : A -> nat) l i y, nth_error l i = Some y -> f y <= total f l.
Proof. intros. destruct (nth_error_split l i H) as (a & b & -> & _). rewrite total_app. cbn [total]. lia. Qed.

Lemma total_two : forall A (f : A -> nat) l i j y z, i <> j -> nth_error l i = Some y -> nth_error l j = Some z -> f y + f z <= total f l.
Proof.
  intros A f l i j y z N Hy Hz. destruct (nth_error_split l i Hy) as (a & b & -> & L). rewrite total_app. cbn [total].
  destruct (lt_dec j i).
  - rewrite nth_error_app1 in Hz by lia. apply (total_in _ f) in Hz. lia.
  - rewrite nth_error_app2 in Hz by lia. destruct (j - length a) eqn:D; [lia|]. cbn in Hz. apply (total_in _ f) in Hz. lia.
Qed.

Lemma total_zero : forall A (f : A -> nat) l, (forall x, In x l -> f x = 0) -> total f l = 0.
Proof. induction l as [|x l IH]; intros H; [reflexivity|]. cbn [total]. rewrite H by (left; reflexivity). rewrite IH; auto. intros; apply H; right; auto. Qed.

Lemma total_zero_inv : forall A (f : A -> nat) l x, total f l = 0 -> In x l -> f x = 0.
Proof. induction l as [|y l IH]; intros x H I; [destruct I|]. cbn [total] in H. destruct I as [-> | I]; [lia | apply IH; [lia | exact I]]. Qed.

Lemma total_ext : forall A (f g : A -> nat) l, (forall x, In x l -> f x = g x) -> total f l = total g l.
Proof. induction l as [|x l IH]; intros H; [reflexivity|]. cbn [total]. rewrite H by (left; reflexivity). f_equal. apply IH. intros; apply H; right; auto. Qed.

Lemma total_repeat : forall A (f : A -> nat) x n, f x = 0 -> total f (repeat x n) = 0.
Proof. intros. apply total_zero. intros y I. apply repeat_spec in I. subst. exact H. Qed.

Notation cnt := (count_occ Nat.eq_dec).

Lemma cnt_flat_map : forall A (g : A -> list nat) l e, cnt (flat_map g l) e = total (fun x => cnt (g x) e) l.
Proof. induction l as [|x l IH]; intros e; [reflexivity|]. cbn [flat_map total]. rewrite count_occ_app, IH. reflexivity. Qed.

(* ------------------------------------------------------------------ *)
(** ** Keys *)

Lemma purpose_eqb_spec : forall a b, purpose_eqb a b = true <-> a = b.
Proof. destruct a, b; cbn; split; congruence. Qed.
Lemma space_eqb_spec : forall a b, space_eqb a b = true <-> a = b.
Proof.
  destruct a, b; cbn; split; try congruence; intros H.
  - apply Nat.eqb_eq in H. congruence.
  - injection H as ->. apply Nat.eqb_refl.
Qed.
Lemma key_eqb_spec : forall a b, key_eqb a b = true <-> a = b.
Proof.
  intros [x a q] [y b r]. unfold key_eqb. cbn. rewrite !andb_true_iff, space_eqb_spec, purpose_eqb_spec, Nat.eqb_eq.
  split; [intros [[-> ->] ->]; reflexivity | intros H; injection H as -> -> ->; auto].
Qed.
Lemma key_eqb_neq : forall a b, key_eqb a b = false <-> a <> b.
Proof. intros a b. rewrite <- key_eqb_spec. destruct (key_eqb a b); split; congruence. Qed.

Lemma number_inj : forall x y, number x = number y -> x = y.
Proof. destruct x, y; cbn; intros H; try lia; try reflexivity. f_equal. lia. Qed.

(* ------------------------------------------------------------------ *)
(** ** The hash table *)

Section Nodes.
Variable hash : atom -> purpose -> nat.
Notation hk k := (hash (k_atom k) (k_purpose k)).

Definition slot (l : list (option node)) (k : key) (d : nat) : nat := (hk k + d) mod length l.

(** The first [d] nodes of the search for [k] are taken by others. *)
Definition before (l : list (option node)) (k : key) (d : nat) : Prop :=
  forall d', d' < d -> exists n, nth_error l (slot l k d') = Some (Some n) /\ n_key n <> k.

Definition reached (l : list (option node)) (k : key) (d index : nat) : Prop := index = slot l k d /\ before l k d.

Definition hashed (l : list (option node)) : Prop :=
  forall index n, nth_error l index = Some (Some n) -> exists d, d < length l /\ reached l (n_key n) d index.

Lemma slot_lt : forall l k d, 0 < length l -> slot l k d < length l.
Proof. intros. unfold slot. apply Nat.mod_upper_bound. lia. Qed.

Lemma slot_S : forall l k d, 0 < length l -> S (slot l k d) mod length l = slot l k (S d).
Proof.
  intros l k d H. unfold slot. rewrite <- (Nat.add_1_l ((hk k + d) mod length l)). rewrite Nat.add_mod_idemp_r by lia.
  f_equal. lia.
Qed.

Lemma slot_onto : forall l k i, i < length l -> exists d, d < length l /\ slot l k d = i.
Proof.
  intros l k i H. unfold slot. set (L := length l) in *.
  exists ((i + (L - hk k mod L)) mod L). split; [apply Nat.mod_upper_bound; lia|].
  rewrite Nat.add_mod_idemp_r by lia.
  pose proof (Nat.mod_upper_bound (hk k) L ltac:(lia)). pose proof (Nat.div_mod (hk k) L ltac:(lia)) as E.
  replace (hk k + (i + (L - hk k mod L))) with (i + (hk k / L + 1) * L) by nia.
  rewrite Nat.mod_add by lia. apply Nat.mod_small. exact H.
Qed.

Lemma hashed_unique : forall l i j m n, hashed l -> nth_error l i = Some (Some m) -> nth_error l j = Some (Some n) ->
  n_key m = n_key n -> i = j.
Proof.
  intros l i j m n H Hi Hj E. destruct (H _ _ Hi) as (d & _ & I1 & B1). destruct (H _ _ Hj) as (d' & _ & J1 & B2).
  rewrite <- E in *. destruct (lt_eq_lt_dec d d') as [[L | ->] | L].
  - destruct (B2 _ L) as (q & Q1 & Q2). rewrite <- I1, Hi in Q1. congruence.
  - congruence.
  - destruct (B1 _ L) as (q & Q1 & Q2). rewrite <- J1, Hj in Q1. congruence.
Qed.

(** Nodes once taken keep their key. *)
Definition evolved (a b : option (list nat)) : Prop := b = None \/ exists l pre, a = Some l /\ b = Some (pre ++ l).
Definition evolves (l l' : list (option node)) : Prop :=
  length l' = length l /\
  forall i n, nth_error l i = Some (Some n) -> exists n', nth_error l' i = Some (Some n') /\ n_key n' = n_key n /\ evolved (sleepers n) (sleepers n').

Lemma evolved_refl : forall a, evolved a a.
Proof. intros [l|]; [right; exists l, []; auto | left; reflexivity]. Qed.
Lemma evolved_trans : forall a b c, evolved a b -> evolved b c -> evolved a c.
Proof.
  intros a b c [-> | (l & pre & -> & ->)] [-> | (l' & pre' & E & ->)]; try (left; reflexivity); try discriminate.
  injection E as <-. right. exists l, (pre' ++ pre). rewrite app_assoc. auto.
Qed.
Lemma evolves_refl : forall l, evolves l l.
Proof. intros l. split; [reflexivity|]. intros i n H. exists n. auto using evolved_refl. Qed.

Lemma before_evolves : forall l l' k d, evolves l l' -> before l k d -> before l' k d.
Proof.
  intros l l' k d [L E] B d' H. destruct (B d' H) as (n & N & K). unfold slot in *. rewrite L.
  destruct (E _ _ N) as (n' & N' & K' & _). exists n'. split; [exact N' | congruence].
Qed.
Lemma reached_evolves : forall l l' k d i, evolves l l' -> reached l k d i -> reached l' k d i.
Proof.
  intros l l' k d i E [-> B]. split; [unfold slot; destruct E as [-> _]; reflexivity | eapply before_evolves; eauto].
Qed.

(** Filling a node at the end of a search. *)
Lemma insert_evolves : forall l i n, nth_error l i = Some None -> evolves l (upd i (Some n) l).
Proof.
  intros l i n H. split; [apply upd_length|]. intros j m M. destruct (Nat.eq_dec i j) as [-> | N]; [congruence|].
  exists m. rewrite upd_other by exact N. auto using evolved_refl.
Qed.
Lemma insert_hashed : forall l n d i, hashed l -> d < length l -> reached l (n_key n) d i -> nth_error l i = Some None -> hashed (upd i (Some n) l).
Proof.
  intros l n d i H D R F j m M. rewrite upd_length. pose proof (insert_evolves l i n F) as EV.
  destruct (upd_cases _ _ _ _ _ _ M) as [(E1 & E2 & _) | (NE & M')].
  - injection E2 as ->. subst j. exists d. split; [exact D | eapply reached_evolves; eauto].
  - destruct (H j m M') as (d' & D' & R'). exists d'. split; [exact D' | eapply reached_evolves; eauto].
Qed.

(** Changing the sleepers of a node. *)
Lemma change_evolves : forall l i n a, nth_error l i = Some (Some n) -> evolved (sleepers n) a -> evolves l (upd i (Some (mknode (n_key n) a)) l).
Proof.
  intros l i n a H E. split; [apply upd_length|]. intros j m M. destruct (Nat.eq_dec i j) as [-> | N].
  - exists (mknode (n_key n) a). rewrite (upd_same _ _ _ _ _ H). assert (m = n) by congruence. subst. auto.
  - exists m. rewrite upd_other by exact N. auto using evolved_refl.
Qed.
Lemma change_hashed : forall l i n a, hashed l -> nth_error l i = Some (Some n) -> evolved (sleepers n) a -> hashed (upd i (Some (mknode (n_key n) a)) l).
Proof.
  intros l i n a H N E j m M. rewrite upd_length. pose proof (change_evolves l i n a N E) as EV.
  destruct (upd_cases _ _ _ _ _ _ M) as [(E1 & E2 & _) | (NE & M')].
  - injection E2 as ->. subst j. cbn [n_key]. destruct (H i n N) as (d & D & R). exists d. split; [exact D | eapply reached_evolves; eauto].
  - destruct (H j m M') as (d' & D' & R'). exists d'. split; [exact D' | eapply reached_evolves; eauto].
Qed.

(* ------------------------------------------------------------------ *)
(** ** Growing *)

Definition taken (n : option node) : nat := match n with Some _ => 1 | None => 0 end.

Lemma taken_le : forall l, total taken l <= length l.
Proof. induction l as [|[n|] l IH]; cbn [total length taken]; lia. Qed.
Lemma free_exists : forall l, total taken l < length l -> exists i, i < length l /\ nth_error l i = Some None.
Proof.
  induction l as [|[n|] l IH]; cbn [total length taken]; intros H; [lia | |].
  - destruct IH as (i & L & E); [lia|]. exists (S i). split; [lia | exact E].
  - exists 0. split; [lia | reflexivity].
Qed.

Lemma place_spec : forall fuel n l d, 0 < length l -> (forall i m, nth_error l i = Some (Some m) -> n_key m <> n_key n) ->
  total taken l < length l -> fuel + d = length l -> before l (n_key n) d ->
  exists i d', place fuel (slot l (n_key n) d) n l = upd i (Some n) l /\ d' < length l /\ reached l (n_key n) d' i /\ nth_error l i = Some None.
Proof.
  induction fuel as [|fuel IH]; intros n l d P K F E B.
  - exfalso. destruct (free_exists l F) as (i & L & N). destruct (slot_onto l (n_key n) i L) as (x & X1 & X2).
    destruct (B x ltac:(lia)) as (m & M & _). congruence.
  - cbn [place]. pose proof (slot_lt l (n_key n) d P) as SL.
    destruct (nth_error l (slot l (n_key n) d)) as [[m|]|] eqn:Q.
    + rewrite slot_S by exact P. apply IH; auto; try lia. intros d' D'. destruct (Nat.eq_dec d' d) as [-> | N].
      * exists m. split; [exact Q | eapply K; exact Q].
      * apply B. lia.
    + exists (slot l (n_key n) d), d. repeat split; auto. lia.
    + apply nth_error_None in Q. lia.
Qed.

Lemma grow_prefix : forall todo l start, length start = 2 * length l -> 0 < length l -> hashed l -> (exists pre, l = pre ++ todo /\
    (forall f, f None = 0 -> total f start = total f pre) /\ hashed start /\ (forall n, In (Some n) start <-> In (Some n) pre)) ->
  let r := fold_left (fun l n => match n with Some n => place_hashed hash l n | None => l end) todo start in
  length r = 2 * length l /\ (forall f, f None = 0 -> total f r = total f l) /\ hashed r /\ (forall n, In (Some n) r <-> In (Some n) l).
Proof.
  induction todo as [|c todo IH]; intros l start L P H (pre & E & T & HS & I).
  - cbn [fold_left]. rewrite app_nil_r in E. subst pre. auto.
  - cbn [fold_left]. destruct c as [n|].
    + assert (K : forall i m, nth_error start i = Some (Some m) -> n_key m <> n_key n).
      { intros i m M Q. apply nth_error_In in M. apply I in M. apply In_nth_error in M. destruct M as (a & A).
        assert (A' : nth_error l a = Some (Some m)). { rewrite E. rewrite nth_error_app1; [exact A | apply nth_error_Some; congruence]. }
        assert (B' : nth_error l (length pre) = Some (Some n)). { rewrite E. rewrite nth_error_app2 by lia. rewrite Nat.sub_diag. reflexivity. }
        pose proof (hashed_unique _ _ _ _ _ H A' B' Q) as X. assert (a < length pre) by (apply nth_error_Some; congruence). lia. }
      assert (F : total taken start < length start).
      { rewrite (T taken eq_refl). pose proof (taken_le pre). rewrite E in L, P. rewrite app_length in *. cbn [length] in *. lia. }
      destruct (place_spec (length start) n start 0) as (i & d & PE & D & R & N); auto; try lia.
      { intros d' D'. lia. }
      assert (PH : place_hashed hash start n = upd i (Some n) start).
      { unfold place_hashed. rewrite <- PE. unfold slot. rewrite Nat.add_0_r. reflexivity. }
      rewrite PH. apply IH.
      * rewrite upd_length. exact L.
      * exact P.
      * exact H.
      * exists (pre ++ [Some n]). rewrite <- app_assoc. split; [exact E|]. split; [|split].
        -- intros f F0. pose proof (total_upd _ f start i (Some n) None N). rewrite total_app. cbn [total]. specialize (T f F0). lia.
        -- apply (insert_hashed start n d i); auto.
        -- intros m. rewrite in_app_iff. cbn [In]. split.
           ++ intros M. apply In_nth_error in M. destruct M as (a & A). destruct (upd_cases _ _ _ _ _ _ A) as [(_ & Q & _) | (_ & Q)].
              ** right. left. congruence.
              ** left. apply I. eapply nth_error_In. exact Q.
           ++ intros [M | [M | []]].
              ** apply I in M. apply In_nth_error in M. destruct M as (a & A).
                 apply (nth_error_In _ a). rewrite upd_other; [exact A | congruence].
              ** injection M as <-. apply (nth_error_In _ i). eapply upd_same. exact N.
    + apply IH; auto. exists (pre ++ [None]). rewrite <- app_assoc. split; [exact E|]. split; [|split; [exact HS|]].
      * intros f F0. rewrite total_app. cbn [total]. rewrite F0. rewrite (T f F0). lia.
      * intros m. rewrite in_app_iff. cbn [In]. rewrite I. split; [auto | intros [M | [M | []]]; [exact M | discriminate]].
Qed.

Lemma grow_spec : forall l, 0 < length l -> hashed l ->
  length (grow hash l) = 2 * length l /\ (forall f, f None = 0 -> total f (grow hash l) = total f l) /\ hashed (grow hash l) /\
  (forall n, In (Some n) (grow hash l) <-> In (Some n) l).
Proof.
  intros l P H. unfold grow. apply grow_prefix; auto.
  - apply repeat_length.
  - exists []. split; [reflexivity|]. split; [|split].
    + intros f F. cbn [total]. apply total_repeat. exact F.
    + intros i n N. apply nth_error_In in N. apply repeat_spec in N. discriminate.
    + intros n. split; [intros N; apply repeat_spec in N; discriminate | intros []].
Qed.
End Nodes.
