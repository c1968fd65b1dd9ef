(** Proofs about the work queue (C18). *)
From Coq Require Import Permutation.
From Verif Require Import Base QueueModel QueueSpec.

Lemma history_app : forall a es b es' c, history a es b -> history b es' c -> history a (es ++ es') c.
Proof.
  intros a es b es' c H K. induction H; cbn [app]; [exact K|apply h_call; auto| |eapply h_return; eauto].
  eapply h_effect; [exact H|]. apply IHhistory. exact K.
Qed.
Lemma history_effect : forall a t o, client a t = Pending o ->
  history a [] (set_client (mkatomic (fst (effect (contents a) o)) (client a)) t (Ended o (snd (effect (contents a) o)))).
Proof. intros a t o C. eapply h_effect; [exact C|apply h_end]. Qed.

Lemma existsb_in : forall x l, existsb (Nat.eqb x) l = true <-> In x l.
Proof.
  intros x l. rewrite existsb_exists. split; [intros (y & I & E); apply Nat.eqb_eq in E; congruence|intro I; exists x; split; [exact I|apply Nat.eqb_refl]].
Qed.
Lemma distinct_nodup : forall l, distinct l = true -> NoDup l.
Proof.
  induction l as [|x l IH]; cbn [distinct]; intro D; [constructor|]. apply andb_prop in D as (A & B). constructor; [|auto]. intro I. apply existsb_in in I. rewrite I in A. discriminate.
Qed.
Lemma same_eq : forall a b, same a b = true <-> a = b.
Proof. intros [a|] [b|]; cbn; try (split; congruence). rewrite Nat.eqb_eq. split; congruence. Qed.
Lemma in_remove : forall x y l, In x (remove_entry y l) <-> In x l /\ x <> y.
Proof. intros x y l. unfold remove_entry. rewrite filter_In. rewrite negb_true_iff, Nat.eqb_neq. reflexivity. Qed.

Lemma last_snoc : forall l x, last_entry (l ++ [x]) = Some x.
Proof. intros. unfold last_entry. rewrite rev_app_distr. reflexivity. Qed.
Lemma last_inv : forall l x, last_entry l = Some x -> exists l', l = l' ++ [x].
Proof.
  intros l x H. unfold last_entry in H. destruct (rev l) as [|y r] eqn:R; [discriminate|]. cbn in H. injection H as ->. exists (rev r). rewrite <- (rev_involutive l), R. reflexivity.
Qed.
Lemma last_app : forall l m, m <> [] -> last_entry (l ++ m) = last_entry m.
Proof. intros l m N. unfold last_entry. rewrite rev_app_distr. destruct (rev m) eqn:R; [|reflexivity]. exfalso. apply N. rewrite <- (rev_involutive m), R. reflexivity. Qed.
Lemma last_none : forall l, last_entry l = None -> l = [].
Proof. intros l H. unfold last_entry in H. destruct (rev l) eqn:R; [|discriminate]. rewrite <- (rev_involutive l), R. reflexivity. Qed.

(** Consecutive entries of a list. *)
Definition adjacent (l : list nat) (x y : nat) : Prop := exists a b, l = a ++ x :: y :: b.
Lemma adjacent_in : forall l x y, adjacent l x y -> In x l /\ In y l.
Proof. intros l x y (a & b & ->). split; apply in_or_app; right; cbn; auto. Qed.
Lemma adjacent_app : forall l m x y, adjacent (l ++ m) x y -> adjacent l x y \/ adjacent m x y \/ last_entry l = Some x /\ hd_error m = Some y.
Proof.
  intros l m x y (a & b & E). revert a E. induction l as [|z l IH]; intros a E; cbn [app] in E.
  - right. left. exists a, b. exact E.
  - destruct a as [|w a]; cbn [app] in E; injection E as -> E.
    + destruct l as [|z l]; cbn [app] in E.
      * subst m. right. right. auto.
      * injection E as -> E. left. exists [], l. reflexivity.
    + destruct (IH a E) as [(a' & b' & ->)|[Q|(Q1 & Q2)]]; [left; exists (w :: a'), b'; reflexivity|auto|right; right].
      split; [|exact Q2]. destruct l; [discriminate|]. rewrite <- Q1. exact (last_app [w] (n :: l) ltac:(discriminate)).
Qed.
Lemma adjacent_left : forall l m x y, adjacent l x y -> adjacent (l ++ m) x y.
Proof. intros l m x y (a & b & ->). exists a, (b ++ m). rewrite <- app_assoc. reflexivity. Qed.
Lemma adjacent_middle : forall l m x y, last_entry l = Some x -> hd_error m = Some y -> adjacent (l ++ m) x y.
Proof. intros l m x y L M. apply last_inv in L as (l' & ->). destruct m as [|z m]; [discriminate|]. injection M as ->. exists l', m. rewrite <- app_assoc. reflexivity. Qed.
Lemma adjacent_unique : forall l x y z, NoDup l -> adjacent l x y -> adjacent l x z -> y = z.
Proof.
  intros l x y z N (a & b & ->) (a' & b' & E). revert a' E. induction a as [|w a IH]; intros a' E; cbn [app] in *.
  - destruct a' as [|w' a']; cbn [app] in E; injection E; [congruence|]. intros E1 E2. subst w'. exfalso. inversion_clear N as [|? ? N1 _]. apply N1. rewrite E1. apply in_or_app. right. left. reflexivity.
  - destruct a' as [|w' a']; cbn [app] in E; injection E; intros E1 E2.
    + subst w. exfalso. inversion_clear N as [|? ? N1 _]. apply N1. apply in_or_app. right. left. reflexivity.
    + inversion_clear N as [|? ? _ N2]. exact (IH N2 a' E1).
Qed.
Lemma adjacent_not_last : forall l x y, NoDup l -> adjacent l x y -> last_entry l <> Some x.
Proof.
  intros l x y N (a & b & ->) L. rewrite last_app in L by discriminate. change (x :: y :: b) with ([x] ++ (y :: b)) in L. rewrite last_app in L by discriminate. apply last_inv in L as (c & E).
  apply NoDup_remove_2 in N. apply N. apply in_or_app. right. rewrite E. apply in_or_app. right. left. reflexivity.
Qed.

(** What [link_list] leaves. *)
Lemma link_other : forall l nx x, ~ In x l -> link_list nx l x = nx x.
Proof.
  induction l as [|y l IH]; intros nx x N; [reflexivity|]. cbn [link_list]. rewrite IH by (intro I; apply N; right; exact I). unfold write_next.
  destruct (Nat.eqb_spec x y) as [->|_]; [exfalso; apply N; left; reflexivity|reflexivity].
Qed.
Lemma link_adjacent : forall l nx x y, NoDup l -> adjacent l x y -> link_list nx l x = Some y.
Proof.
  induction l as [|z l IH]; intros nx x y N (a & b & E); [destruct a; discriminate|]. inversion_clear N as [|? ? N1 N2]. destruct a as [|w a]; cbn [app] in E; injection E as -> ->.
  - change (link_list nx (x :: y :: b) x) with (link_list (write_next nx x (Some y)) (y :: b) x). rewrite link_other by exact N1. unfold write_next. rewrite Nat.eqb_refl. reflexivity.
  - cbn [link_list]. apply IH; [exact N2|]. exists a, b. reflexivity.
Qed.
Lemma link_last : forall l nx x, NoDup l -> last_entry l = Some x -> link_list nx l x = None.
Proof.
  induction l as [|z l IH]; intros nx x N L; [discriminate|]. inversion_clear N as [|? ? N1 N2]. destruct l as [|w l].
  - injection L as ->. cbn. unfold write_next. rewrite Nat.eqb_refl. reflexivity.
  - change (link_list nx (z :: w :: l) x) with (link_list (write_next nx z (Some w)) (w :: l) x). apply IH; [exact N2|]. rewrite <- L. symmetry. exact (last_app [z] (w :: l) ltac:(discriminate)).
Qed.

(** ** The invariant *)
(** Entries announced and not yet in the queue. *)
Definition pending (p : pc) : list nat := match p with Count l | LoadEnd l | SwapEmpty l | SwapEnd l _ => l | _ => [] end.

Definition linked (nx : nat -> option nat) (l : list nat) : Prop :=
  l <> [] /\ NoDup l /\ (forall x y, adjacent l x y -> nx x = Some y) /\ (forall x, last_entry l = Some x -> nx x = None).

Definition fact (s : state) (Q : list nat) (p : pc) (st : status) : Prop :=
  match p with
  | Idle => st = Ready
  | Count l | LoadEnd l | SwapEmpty l | SwapEnd l _ => st = Pending (Append l) /\ linked (next s) l
  | Link l e => st = Ended (Append l) None /\ next s e = None /\ exists y, hd_error l = Some y /\ adjacent Q e y
  | Appended l => st = Ended (Append l) None
  | ReadBoth | SwapLast _ | Next _ => st = Pending Take
  | NextAgain b => st = Pending Take /\ next s b <> None
  | SwapBegin b nx => st = Pending Take /\ nx <> None /\ next s b = nx
  | Taken r => st = Ended Take r
  | Finishing => st = Pending Finish
  | Fault => False
  end.

Section P.
Variable workers : nat.
Record inv (s : state) (a : atomic) : Prop := mkinv {
  i_begin : q_begin s = hd_error (contents a);
  i_end : q_end s = last_entry (contents a);
  i_nodup : NoDup (contents a);
  i_links : forall x y, adjacent (contents a) x y -> next s x = Some y \/ (next s x = None /\ exists t l, threads s t = Link l x);
  i_last : forall x, last_entry (contents a) = Some x -> next s x = None;
  i_queued : forall x, In x (contents a) -> In x (queued s);
  i_pending : forall t x, In x (pending (threads s t)) -> In x (queued s) /\ ~ In x (contents a) /\ forall u, In x (pending (threads s u)) -> u = t;
  i_link1 : forall t u l m x, threads s t = Link l x -> threads s u = Link m x -> u = t;
  i_threads : forall t, fact s (contents a) (threads s t) (client a t);
  i_outside : forall t, (workers <= t)%nat -> threads s t = Idle /\ held s t = None;
  i_held : forall t, match threads s t with Taken _ | ReadBoth | SwapLast _ | Next _ | NextAgain _ | SwapBegin _ _ => held s t = None | Finishing => held s t <> None | _ => True end;
  i_count : in_flight s = Z.of_nat (length (contents a)) + carried workers s }.
End P.

(** The sum over workers after a change of one. *)
Lemma sum_change : forall (f g : nat -> Z) l t, NoDup l -> In t l -> (forall u, u <> t -> g u = f u) ->
  fold_right Z.add 0 (map g l) = fold_right Z.add 0 (map f l) + (g t - f t).
Proof.
  intros f g l t. induction l as [|x l IH]; intros N I E; [destruct I|]. inversion_clear N as [|? ? N1 N2]. cbn [map fold_right]. destruct (Nat.eq_dec x t) as [->|NE].
  - replace (map g l) with (map f l); [lia|]. apply map_ext_in. intros u U. symmetry. apply E. intros ->. exact (N1 U).
  - rewrite IH; [|exact N2|destruct I; [contradiction|assumption]|exact E]. rewrite (E x NE). lia.
Qed.
Lemma carried_change : forall w s s' t, (t < w)%nat -> (forall u, u <> t -> carries s' u = carries s u) -> carried w s' = carried w s + (carries s' t - carries s t).
Proof. intros w s s' t L E. unfold carried. apply sum_change; [apply seq_NoDup|apply in_seq; lia|exact E]. Qed.

Definition is_link (p : pc) : bool := match p with Link _ _ => true | _ => false end.
Definition held_ok (p : pc) (h : option nat) : Prop :=
  match p with Taken _ | ReadBoth | SwapLast _ | Next _ | NextAgain _ | SwapBegin _ _ => h = None | Finishing => h <> None | _ => True end.
Definition load_of (p : pc) (h : option nat) : Z :=
  match p with LoadEnd l | SwapEmpty l | SwapEnd l _ => Z.of_nat (length l) | Taken (Some _) => 1 | _ => 0 end + match h with Some _ => 1 | None => 0 end.
Lemma carries_load : forall s t, carries s t = load_of (threads s t) (held s t).
Proof. reflexivity. Qed.

Section Q.
Variable w : nat.
Notation inv := (inv w).
Lemma inv_end : forall s a, inv s a -> q_end s = None -> contents a = [] /\ q_begin s = None.
Proof. intros s a I E. rewrite (i_end _ _ _ I) in E. apply last_none in E. split; [exact E|]. rewrite (i_begin _ _ _ I), E. reflexivity. Qed.
Lemma inv_begin : forall s a, inv s a -> q_begin s = None -> contents a = [] /\ q_end s = None.
Proof. intros s a I E. rewrite (i_begin _ _ _ I) in E. destruct (contents a) eqn:C; [|discriminate]. split; [reflexivity|]. rewrite (i_end _ _ _ I), C. reflexivity. Qed.

(** A step that changes only what belongs to thread [t]. *)
Lemma inv_local : forall s s' a a' t p h st, inv s a -> (t < w)%nat ->
  q_begin s' = q_begin s -> q_end s' = q_end s -> next s' = next s -> queued s' = queued s ->
  threads s' t = p -> (forall u, u <> t -> threads s' u = threads s u) -> held s' t = h -> (forall u, u <> t -> held s' u = held s u) ->
  contents a' = contents a -> client a' t = st -> (forall u, u <> t -> client a' u = client a u) ->
  (forall x, In x (pending p) -> In x (pending (threads s t))) -> is_link (threads s t) = false -> is_link p = false -> held_ok p h ->
  fact s (contents a) p st -> in_flight s' = in_flight s + (load_of p h - load_of (threads s t) (held s t)) -> inv s' a'.
Proof.
  intros s s' a a' t p h st I T Eb Ee En Eq Tp Tu Hp Hu Ec Ct Cu Pn L1 L2 Ho F Fl. destruct I as [ib ie ind il ila iq ip ik it io ih ic].
  assert (Th : forall u, threads s' u = if Nat.eqb u t then p else threads s u) by (intro u; destruct (Nat.eqb_spec u t) as [->|]; auto).
  assert (Nl : forall u l x, threads s' u = Link l x -> u <> t /\ threads s u = Link l x). { intros u l x Q. rewrite Th in Q. destruct (Nat.eqb_spec u t) as [->|]; [rewrite Q in L2; discriminate|auto]. }
  assert (PP : forall u x, In x (pending (threads s' u)) -> In x (pending (threads s u))). { intros u x. rewrite Th. destruct (Nat.eqb_spec u t) as [->|]; auto. }
  constructor; rewrite ?Ec, ?Eb, ?Ee, ?En, ?Eq; try assumption.
  - intros x y A. destruct (il x y A) as [Q|(Q & u & l & Q2)]; [auto|]. right. split; [exact Q|]. exists u, l. rewrite Th. destruct (Nat.eqb_spec u t) as [->|]; [rewrite Q2 in L1; discriminate|exact Q2].
  - intros u x X. apply PP in X. destruct (ip u x X) as (A & B & C). repeat split; auto.
  - intros u v l m x A B. apply Nl in A as (_ & A). apply Nl in B as (_ & B). exact (ik u v l m x A B).
  - intro u. rewrite Th. assert (Fx : forall p' st', fact s (contents a) p' st' -> fact s' (contents a) p' st') by (intros p' st'; destruct p'; cbn [fact]; rewrite ?En; auto).
    destruct (Nat.eqb_spec u t) as [->|N]; apply Fx; [rewrite Ct; exact F|rewrite (Cu u N); apply it].
  - intros u U. destruct (Nat.eqb_spec u t) as [->|N]; [lia|]. rewrite Tu, Hu by exact N. auto.
  - intro u. rewrite Th. destruct (Nat.eqb_spec u t) as [->|N]; [rewrite Hp; exact Ho|rewrite (Hu u N); apply ih].
  - rewrite Fl, ic. rewrite (carried_change w s s' t T); [rewrite !carries_load, Tp, Hp; lia|]. intros u N. rewrite !carries_load, Tu, Hu by exact N. reflexivity.
Qed.

Ltac at_t t := cbn [set_pc set_flight set_held set_queue set_next threads held in_flight q_begin q_end next queued set_client contents client]; rewrite ?Nat.eqb_refl; try reflexivity;
  try (let u := fresh in let N := fresh in intros u N; destruct (Nat.eqb_spec u t); [contradiction|reflexivity]).

Lemma inv_move : forall s a t p, inv s a -> (t < w)%nat -> (forall x, In x (pending p) -> In x (pending (threads s t))) -> is_link (threads s t) = false -> is_link p = false -> held_ok p (held s t) ->
  fact s (contents a) p (client a t) -> load_of p (held s t) = load_of (threads s t) (held s t) -> inv (set_pc s t p) a.
Proof.
  intros s a t p I T Pn L1 L2 Ho F Ld. eapply (inv_local s _ a a t p (held s t)); try reflexivity; try eassumption; at_t t. lia.
Qed.

Lemma same_false : forall a b, same a b = false -> a <> b.
Proof. intros a b S E. apply same_eq in E. congruence. Qed.

Lemma head_adjacent : forall b q x y, adjacent (b :: q) x y -> (x = b /\ hd_error q = Some y) \/ adjacent q x y.
Proof.
  intros b q x y (l & m & E). destruct l as [|z l]; cbn [app] in E; injection E as -> ->; [left; auto|right; exists l, m; reflexivity].
Qed.

(** A list becomes part of the queue. *)
Lemma inv_append : forall s s' a t l p, inv s a -> (t < w)%nat -> pending (threads s t) = l -> is_link (threads s t) = false -> load_of (threads s t) (held s t) = Z.of_nat (length l) + load_of p (held s t) -> linked (next s) l ->
  q_begin s' = hd_error (contents a ++ l) -> q_end s' = last_entry l -> next s' = next s -> queued s' = queued s -> in_flight s' = in_flight s -> held s' = held s ->
  threads s' t = p -> (forall u, u <> t -> threads s' u = threads s u) ->
  (p = Appended l /\ contents a = [] \/ exists e, p = Link l e /\ last_entry (contents a) = Some e) ->
  inv s' (set_client (mkatomic (contents a ++ l) (client a)) t (Ended (Append l) None)).
Proof.
  intros s s' a t l p I T Pt Lt Ld (Ln & Lnd & Ladj & Llast) Eb Ee En Eq Ef Eh Tp Tu P. destruct I as [ib ie ind il ila iq ip ik it io ih ic].
  assert (Pp : pending p = []) by (destruct P as [(-> & _)|(e & -> & _)]; reflexivity).
  assert (Disj : forall x, In x l -> In x (queued s) /\ ~ In x (contents a) /\ forall u, In x (pending (threads s u)) -> u = t) by (intros x X; apply ip; rewrite Pt; exact X).
  assert (Th : forall u, threads s' u = if Nat.eqb u t then p else threads s u) by (intro u; destruct (Nat.eqb_spec u t) as [->|]; auto).
  assert (Lk : forall u m x, threads s u = Link m x -> threads s' u = Link m x). { intros u m x Q. rewrite Th. destruct (Nat.eqb_spec u t) as [->|]; [rewrite Q in Lt; discriminate|exact Q]. }
  constructor; cbn [set_client contents client]; rewrite ?En, ?Eq, ?Ef; try assumption.
  - rewrite Ee. symmetry. apply last_app, Ln.
  - clear - ind Lnd Disj. assert (D : forall x, In x l -> ~ In x (contents a)) by (intros x X; apply (Disj x X)). clear Disj. induction (contents a) as [|z q IH]; [exact Lnd|]. inversion_clear ind as [|? ? N1 N2]. cbn [app]. constructor.
    + rewrite in_app_iff. intros [X|X]; [exact (N1 X)|exact (D z X (or_introl eq_refl))].
    + apply IH; [exact N2|]. intros x X Q. exact (D x X (or_intror Q)).
  - intros x y A. apply adjacent_app in A as [A|[A|(A & B)]].
    + destruct (il x y A) as [Q|(Q & u & m & Q2)]; [auto|]. right. split; [exact Q|]. exists u, m. apply Lk, Q2.
    + left. apply Ladj, A.
    + right. split; [apply ila, A|]. destruct P as [(_ & C)|(e & Pe & C)]; [rewrite C in A; discriminate|]. exists t, l. rewrite Tp, Pe. congruence.
  - intros x A. rewrite last_app in A by exact Ln. apply Llast, A.
  - intros x A. apply in_app_iff in A as [A|A]; [apply iq, A|apply Disj, A].
  - intros u x X. rewrite Th in X. destruct (Nat.eqb_spec u t) as [->|N]; [rewrite Pp in X; destruct X|]. destruct (ip u x X) as (A & B & C). split; [exact A|]. split.
    + rewrite in_app_iff. intros [Y|Y]; [exact (B Y)|]. apply N. exact (proj2 (proj2 (Disj x Y)) u X).
    + intros v V. rewrite Th in V. destruct (Nat.eqb v t); [rewrite Pp in V; destruct V|exact (C v V)].
  - assert (NL : forall u m x, u <> t -> threads s u = Link m x -> last_entry (contents a) <> Some x).
    { intros u m x N Q. assert (Fu := it u). rewrite Q in Fu. destruct Fu as (_ & _ & y & _ & A). exact (adjacent_not_last _ _ _ ind A). }
    intros u v m m' x A B. rewrite Th in A, B. destruct (Nat.eqb_spec u t) as [Eu|N], (Nat.eqb_spec v t) as [Ev|N2]; [congruence| | |].
    + exfalso. destruct P as [(Pe & _)|(e & Pe & C)]; [congruence|]. refine (NL v m' x N2 B _). congruence.
    + exfalso. destruct P as [(Pe & _)|(e & Pe & C)]; [congruence|]. refine (NL u m x N A _). congruence.
    + exact (ik u v m m' x A B).
  - intro u. rewrite Th. destruct (Nat.eqb_spec u t) as [->|N].
    + destruct P as [(-> & _)|(e & -> & C)]; cbn [fact]; [reflexivity|]. split; [reflexivity|]. rewrite En. split; [apply ila, C|]. destruct l as [|y l']; [congruence|]. exists y. split; [reflexivity|]. apply adjacent_middle; [exact C|reflexivity].
    + assert (Fu := it u). destruct (threads s u); cbn [fact] in *; rewrite ?En; auto. destruct Fu as (A & B & y & C & D). repeat split; auto. exists y. split; [exact C|]. apply adjacent_left, D.
  - intros u U. rewrite Eh, Tu by lia. auto.
  - intro u. rewrite Eh, Th. destruct (Nat.eqb_spec u t) as [->|N]; [|apply ih]. destruct P as [(-> & _)|(e & -> & C)]; trivial.
  - rewrite app_length, ic. rewrite (carried_change w s s' t T); [rewrite !carries_load, Tp, Eh; lia|]. intros u N. rewrite !carries_load, Tu, Eh by exact N. reflexivity.
Qed.

(** The link of an appended list is written. *)
Lemma inv_link : forall s a t l e, inv s a -> (t < w)%nat -> threads s t = Link l e -> inv (set_pc (set_next s (write_next (next s) e (hd_error l))) t (Appended l)) a.
Proof.
  intros s a t l e I T PC. destruct I as [ib ie ind il ila iq ip ik it io ih ic]. assert (F := it t). rewrite PC in F. destruct F as (Fc & Fn & y0 & Fy & Fa).
  assert (Ei : In e (contents a)) by (apply adjacent_in in Fa; apply Fa).
  assert (Th : forall u, threads (set_pc (set_next s (write_next (next s) e (hd_error l))) t (Appended l)) u = if Nat.eqb u t then Appended l else threads s u) by reflexivity.
  assert (W : forall x, x <> e -> write_next (next s) e (hd_error l) x = next s x) by (intros x N; unfold write_next; destruct (Nat.eqb_spec x e); [contradiction|reflexivity]).
  assert (We : write_next (next s) e (hd_error l) e = Some y0) by (unfold write_next; rewrite Nat.eqb_refl; exact Fy).
  constructor; try assumption; cbn [set_pc set_next q_begin q_end next queued held in_flight].
  - intros x y A. destruct (Nat.eq_dec x e) as [->|N].
    + left. rewrite We. f_equal. exact (adjacent_unique _ _ _ _ ind Fa A).
    + rewrite W by exact N. destruct (il x y A) as [Q|(Q & u & m & Q2)]; [auto|]. right. split; [exact Q|]. exists u, m. rewrite Th. destruct (Nat.eqb_spec u t) as [->|]; [congruence|exact Q2].
  - intros x A. rewrite W; [apply ila, A|]. intros ->. exact (adjacent_not_last _ _ _ ind Fa A).
  - intros u x X. rewrite Th in X. destruct (Nat.eqb_spec u t) as [->|N]; [destruct X|]. destruct (ip u x X) as (A & B & C). split; [exact A|]. split; [exact B|].
    intros v V. rewrite Th in V. destruct (Nat.eqb v t); [destruct V|exact (C v V)].
  - intros u v m m' x A B. rewrite Th in A, B. destruct (Nat.eqb_spec u t), (Nat.eqb_spec v t); try discriminate. exact (ik u v m m' x A B).
  - intro u. rewrite Th. destruct (Nat.eqb_spec u t) as [->|N]; [exact Fc|]. assert (Fu := it u).
    assert (LL : forall k, (forall x, In x k -> ~ In x (contents a)) -> linked (next s) k -> linked (write_next (next s) e (hd_error l)) k).
    { intros k D (K1 & K2 & K3 & K4). repeat split; auto.
      - intros x y A. rewrite W; [apply K3, A|]. intros ->. exact (D e (proj1 (adjacent_in _ _ _ A)) Ei).
      - intros x A. rewrite W; [apply K4, A|]. intros ->. apply (D e); [|exact Ei]. apply last_inv in A as (k' & ->). apply in_or_app. right. left. reflexivity. }
    assert (Du : forall x, In x (pending (threads s u)) -> ~ In x (contents a)) by (intros x X; apply (ip u x X)).
    destruct (threads s u) as [|k|k|k|k e'|k e'|k| |b|b|b|b nx|r| |] eqn:PU; cbn [fact pending set_next next set_pc] in *; auto.
    + destruct Fu as (A & B). auto.
    + destruct Fu as (A & B). auto.
    + destruct Fu as (A & B). auto.
    + destruct Fu as (A & B). auto.
    + destruct Fu as (A & B & C). split; [exact A|]. split; [|exact C]. rewrite W; [exact B|]. intros ->. apply N. exact (ik t u l k e PC PU).
    + destruct Fu as (A & B). split; [exact A|]. destruct (Nat.eq_dec b e) as [->|Nb]; [rewrite We; discriminate|rewrite W; assumption].
    + destruct Fu as (A & B & C). repeat split; auto. rewrite W; [exact C|]. intros ->. congruence.
  - intros u U. rewrite Th. destruct (Nat.eqb_spec u t) as [->|N]; [lia|apply io, U].
  - intro u. rewrite Th. destruct (Nat.eqb_spec u t) as [->|N]; [trivial|apply ih].
  - change (in_flight s = Z.of_nat (length (contents a)) + carried w (set_pc (set_next s (write_next (next s) e (hd_error l))) t (Appended l))).
    rewrite ic. rewrite (carried_change w s (set_pc (set_next s (write_next (next s) e (hd_error l))) t (Appended l)) t T); [|intros u N; rewrite !carries_load, Th; destruct (Nat.eqb_spec u t); [contradiction|reflexivity]].
    rewrite !carries_load, Th, Nat.eqb_refl, PC. unfold load_of. cbn [set_pc set_next held]. lia.
Qed.

(** The first entry leaves the queue. *)
Lemma inv_pop : forall s a t b q nb ne, inv s a -> (t < w)%nat -> contents a = b :: q -> pending (threads s t) = [] -> is_link (threads s t) = false -> held s t = None -> load_of (threads s t) (held s t) = 0 ->
  (q <> [] -> next s b <> None) -> nb = hd_error q -> ne = last_entry q ->
  inv (set_pc (set_queue s nb ne (remove_entry b (queued s))) t (Taken (Some b))) (set_client (mkatomic q (client a)) t (Ended Take (Some b))).
Proof.
  intros s a t b q nb ne I T C Pt Lt Ht Ld Nb -> ->. destruct I as [ib ie ind il ila iq ip ik it io ih ic]. rewrite C in *.
  assert (Th : forall u, threads (set_pc (set_queue s (hd_error q) (last_entry q) (remove_entry b (queued s))) t (Taken (Some b))) u = if Nat.eqb u t then Taken (Some b) else threads s u) by reflexivity.
  assert (Up : forall x y, adjacent q x y -> adjacent (b :: q) x y) by (intros x y (l & m & ->); exists (b :: l), m; reflexivity).
  assert (Ul : forall x, last_entry q = Some x -> last_entry (b :: q) = Some x). { intros x X. rewrite <- X. apply (last_app [b] q). intros ->. discriminate. }
  inversion ind as [|? ? N1 N2]; subst.
  constructor; cbn [set_pc set_queue q_begin q_end next queued held in_flight set_client contents client]; auto.
  - intros x y A. destruct (il x y (Up _ _ A)) as [Q|(Q & u & m & Q2)]; [auto|]. right. split; [exact Q|]. exists u, m. rewrite Th. destruct (Nat.eqb_spec u t) as [->|]; [rewrite Q2 in Lt; discriminate|exact Q2].
  - intros x X. apply in_remove. split; [apply iq; right; exact X|]. intros ->. exact (N1 X).
  - intros u x X. rewrite Th in X. destruct (Nat.eqb_spec u t) as [->|N]; [destruct X|]. destruct (ip u x X) as (A & B & D). split; [|split].
    + apply in_remove. split; [exact A|]. intros ->. apply B. left. reflexivity.
    + intro Y. apply B. right. exact Y.
    + intros v V. rewrite Th in V. destruct (Nat.eqb v t); [destruct V|exact (D v V)].
  - intros u v m m' x A B. rewrite Th in A, B. destruct (Nat.eqb_spec u t), (Nat.eqb_spec v t); try discriminate. exact (ik u v m m' x A B).
  - intro u. rewrite Th. destruct (Nat.eqb_spec u t) as [->|N]; [reflexivity|]. assert (Fu := it u). destruct (threads s u); cbn [fact set_queue set_pc next] in *; auto.
    destruct Fu as (A & B & y & D & E). repeat split; auto. exists y. split; [exact D|]. apply head_adjacent in E as [(-> & E)|E]; [|exact E]. exfalso. apply Nb; [|exact B]. intros ->. discriminate.
  - intros u U. rewrite Th. destruct (Nat.eqb_spec u t) as [->|N]; [lia|apply io, U].
  - intro u. rewrite Th. destruct (Nat.eqb_spec u t) as [->|N]; [exact Ht|apply ih].
  - change (in_flight s = Z.of_nat (length q) + carried w (set_pc (set_queue s (hd_error q) (last_entry q) (remove_entry b (queued s))) t (Taken (Some b)))).
    rewrite ic. rewrite (carried_change w s (set_pc (set_queue s (hd_error q) (last_entry q) (remove_entry b (queued s))) t (Taken (Some b))) t T); [|intros u N; rewrite !carries_load, Th; destruct (Nat.eqb_spec u t); [contradiction|reflexivity]].
    rewrite !carries_load, Th, Nat.eqb_refl, Ld. unfold load_of. cbn [set_pc set_queue held length]. rewrite Ht. lia.
Qed.

Lemma step_inv : forall s t a, inv s a -> (t < w)%nat -> exists a', history a (snd (step s t)) a' /\ inv (fst (step s t)) a'.
Proof.
  intros s t a I T. assert (F := i_threads _ _ _ I t). assert (Hh := i_held _ _ _ I t).
  assert (stay : exists a', history a [] a' /\ inv s a') by (exists a; split; [constructor|exact I]).
  assert (move : forall p, (forall x, In x (pending p) -> In x (pending (threads s t))) -> is_link (threads s t) = false -> is_link p = false -> held_ok p (held s t) ->
    fact s (contents a) p (client a t) -> load_of p (held s t) = load_of (threads s t) (held s t) -> exists a', history a [] a' /\ inv (set_pc s t p) a') by (intros; exists a; split; [constructor|apply inv_move; assumption]).
  unfold step, goto. destruct (threads s t) as [|l|l|l|l e|l e|l| |b|b|b|b nx|r| |] eqn:PC; cbn [fact] in F; try exact stay; cbn [fst snd].
  - (* Count *) exists a. split; [constructor|]. eapply (inv_local s _ a a t (LoadEnd l) (held s t)); try reflexivity; try eassumption; at_t t; rewrite ?PC; cbn [pending is_link held_ok fact]; unfold load_of; auto. lia.
  - (* LoadEnd *) destruct F as (F & Lk). destruct (q_end s); apply move; cbn [pending is_link held_ok fact]; unfold load_of; auto.
  - (* SwapEmpty *) destruct F as (F & Lk). destruct (same (q_begin s) None && same (q_end s) None) eqn:SS; cbn [fst snd]; [|apply move; cbn [pending is_link held_ok fact]; unfold load_of; auto].
    apply andb_prop in SS as (S1 & S2). apply same_eq in S1, S2. destruct (inv_end _ _ I S2) as (C & _).
    exists (set_client (mkatomic (fst (effect (contents a) (Append l))) (client a)) t (Ended (Append l) (snd (effect (contents a) (Append l))))). split; [apply history_effect, F|].
    cbn [effect fst snd]. eapply (inv_append s _ a t l (Appended l)); try reflexivity; at_t t; try assumption; rewrite ?PC, ?C; cbn [pending is_link app]; unfold load_of; auto.
  - (* SwapEnd *) destruct F as (F & Lk). destruct (same (q_end s) (Some e)) eqn:SS; cbn [fst snd]; [|apply move; cbn [pending is_link held_ok fact]; unfold load_of; auto].
    apply same_eq in SS. rewrite (i_end _ _ _ I) in SS.
    exists (set_client (mkatomic (fst (effect (contents a) (Append l))) (client a)) t (Ended (Append l) (snd (effect (contents a) (Append l))))). split; [apply history_effect, F|].
    cbn [effect fst snd]. eapply (inv_append s _ a t l (Link l e)); try reflexivity; at_t t; try assumption; rewrite ?PC; cbn [pending is_link app]; unfold load_of; auto; [|right; exists e; auto].
    rewrite (i_begin _ _ _ I). destruct (contents a); [discriminate|reflexivity].
  - (* Link *) exists a. split; [constructor|]. exact (inv_link s a t l e I T PC).
  - (* Appended *) exists (set_client a t Ready). split; [eapply h_return; [exact F|constructor]|].
    eapply (inv_local s _ a _ t Idle (held s t)); try reflexivity; try eassumption; at_t t; rewrite ?PC; cbn [pending is_link held_ok fact]; unfold load_of; auto. lia.
  - (* ReadBoth *) destruct (q_begin s) as [b|] eqn:B.
    + destruct (q_end s) as [e|] eqn:E; [|destruct (inv_end _ _ I E); congruence]. cbn [fst snd]. destruct (Nat.eqb b e); apply move; cbn [pending is_link held_ok fact]; unfold load_of; auto.
    + destruct (inv_begin _ _ I B) as (C & E). rewrite E. cbn [fst snd].
      exists (set_client (mkatomic (fst (effect (contents a) Take)) (client a)) t (Ended Take (snd (effect (contents a) Take)))). split; [apply history_effect, F|]. rewrite C. cbn [effect fst snd].
      eapply (inv_local s _ a _ t (Taken None) (held s t)); try reflexivity; try eassumption; at_t t; rewrite ?PC; cbn [pending is_link held_ok fact]; unfold load_of; auto. lia.
  - (* SwapLast *) destruct (same (q_begin s) (Some b) && same (q_end s) (Some b)) eqn:SS; cbn [fst snd]; [|apply move; cbn [pending is_link held_ok fact]; unfold load_of; auto].
    apply andb_prop in SS as (S1 & S2). apply same_eq in S1, S2. rewrite (i_begin _ _ _ I) in S1. rewrite (i_end _ _ _ I) in S2.
    assert (C : contents a = [b]).
    { assert (N := i_nodup _ _ _ I). destruct (contents a) as [|z q]; [discriminate|]. injection S1 as ->. destruct q as [|z q]; [reflexivity|]. exfalso. change (b :: z :: q) with ([b] ++ z :: q) in S2. rewrite last_app in S2 by discriminate.
      apply last_inv in S2 as (k & E). inversion_clear N as [|? ? N1 _]. apply N1. rewrite E. apply in_or_app. right. left. reflexivity. }
    exists (set_client (mkatomic (fst (effect (contents a) Take)) (client a)) t (Ended Take (snd (effect (contents a) Take)))). split; [apply history_effect, F|]. rewrite C. cbn [effect fst snd].
    eapply inv_pop; try eassumption; rewrite ?PC; try reflexivity; [unfold load_of; rewrite Hh; reflexivity|congruence].
  - (* Next *) destruct (next s b) eqn:N; apply move; cbn [pending is_link held_ok fact]; unfold load_of; auto. split; [exact F|congruence].
  - (* NextAgain *) destruct F as (F & N). apply move; cbn [pending is_link held_ok fact]; unfold load_of; auto.
  - (* SwapBegin *) destruct F as (F & Nx & Nb). destruct (same (q_begin s) (Some b)) eqn:SS; cbn [fst snd]; [|apply move; cbn [pending is_link held_ok fact]; unfold load_of; auto].
    apply same_eq in SS. rewrite (i_begin _ _ _ I) in SS. destruct (contents a) as [|z q] eqn:C; [discriminate|]. injection SS as ->.
    assert (Q : q <> []). { intros ->. apply Nx. rewrite <- Nb. apply (i_last _ _ _ I). rewrite C. reflexivity. }
    assert (E : nx = hd_error q).
    { destruct q as [|y q]; [congruence|]. destruct (i_links _ _ _ I b y) as [L|(L & _)]; [rewrite C; exists [], q; reflexivity|cbn; congruence|congruence]. }
    exists (set_client (mkatomic (fst (effect (contents a) Take)) (client a)) t (Ended Take (snd (effect (contents a) Take)))). split; [apply history_effect, F|]. rewrite C. cbn [effect fst snd].
    eapply inv_pop; try eassumption; rewrite ?PC; try reflexivity; [unfold load_of; rewrite Hh; reflexivity|congruence|].
    rewrite (i_end _ _ _ I), C. apply (last_app [b] q), Q.
  - (* Taken *) exists (set_client a t Ready). split; [eapply h_return; [exact F|constructor]|].
    eapply (inv_local s _ a _ t Idle r); try reflexivity; try eassumption; at_t t; rewrite ?PC; cbn [pending is_link held_ok fact]; unfold load_of; auto. rewrite Hh. destruct r; lia.
  - (* Finishing *) eexists. split.
    + change [Return t Finish None] with ([] ++ [Return t Finish None]). eapply history_app; [apply history_effect, F|]. eapply h_return; [cbn [set_client client]; rewrite Nat.eqb_refl; reflexivity|apply h_end].
    + eapply (inv_local s _ a _ t Idle None); try reflexivity; try eassumption; at_t t; rewrite ?PC; cbn [pending is_link held_ok fact]; unfold load_of; auto. destruct (held s t); [lia|congruence].
Qed.

Lemma call_inv : forall s t o a, inv s a -> (t < w)%nat -> threads s t = Idle -> allowed s t o = true -> no_reuse w (s, Calls t o) -> inv (set_pc (announce s o) t (entry_of o)) (set_client a t (Pending o)).
Proof.
  intros s t o a I T PC A R. destruct o as [l| |].
  - specialize (R T PC A). cbn [allowed] in A. apply andb_prop in A as (A & A3). apply andb_prop in A as (A1 & A2). apply distinct_nodup in A2.
    assert (Fr : forall x, In x l -> ~ In x (queued s)). { intros x X Q. rewrite forallb_forall in A3. specialize (A3 x X). apply existsb_in in Q. rewrite Q in A3. discriminate. }
    cbn [no_reuse snd fst] in R. destruct I as [ib ie ind il ila iq ip ik it io ih ic]. cbn [announce entry_of].
    set (nx := link_list (next s) l).
    assert (Nx : forall x, ~ In x l -> nx x = next s x) by (intros x N; apply link_other, N).
    assert (Cn : forall x, In x (contents a) -> ~ In x l) by (intros x X Y; exact (Fr x Y (iq x X))).
    assert (Th : forall u, threads (set_pc (set_queue (set_next s nx) (q_begin s) (q_end s) (l ++ queued s)) t (Count l)) u = if Nat.eqb u t then Count l else threads s u) by reflexivity.
    assert (LL : forall k, (forall x, In x k -> ~ In x l) -> linked (next s) k -> linked nx k).
    { intros k D (K1 & K2 & K3 & K4). repeat split; auto.
      - intros x y B. rewrite Nx; [apply K3, B|]. apply D, (adjacent_in _ _ _ B).
      - intros x B. rewrite Nx; [apply K4, B|]. apply D. apply last_inv in B as (k' & ->). apply in_or_app. right. left. reflexivity. }
    constructor; try assumption; cbn [set_pc set_queue set_next q_begin q_end next queued held in_flight set_client contents client].
    + intros x y B. rewrite Nx by (apply Cn, (adjacent_in _ _ _ B)). destruct (il x y B) as [Q|(Q & u & m & Q2)]; [auto|]. right. split; [exact Q|]. exists u, m. rewrite Th. destruct (Nat.eqb_spec u t) as [->|]; [congruence|exact Q2].
    + intros x B. rewrite Nx; [apply ila, B|]. apply Cn. apply last_inv in B as (k & ->). apply in_or_app. right. left. reflexivity.
    + intros x B. apply in_or_app. right. apply iq, B.
    + intros u x X. rewrite Th in X. destruct (Nat.eqb_spec u t) as [Eu|N].
      * cbn [pending] in X. split; [apply in_or_app; left; exact X|]. split; [intro Q; exact (Cn x Q X)|]. intros v V. rewrite Th in V. destruct (Nat.eqb_spec v t); [congruence|]. exfalso. exact (Fr x X (proj1 (ip v x V))).
      * destruct (ip u x X) as (B1 & B2 & B3). split; [apply in_or_app; right; exact B1|]. split; [exact B2|]. intros v V. rewrite Th in V. destruct (Nat.eqb_spec v t); [|exact (B3 v V)]. exfalso. exact (Fr x V B1).
    + intros u v m m' x B C. rewrite Th in B, C. destruct (Nat.eqb_spec u t), (Nat.eqb_spec v t); try discriminate. exact (ik u v m m' x B C).
    + intro u. rewrite Th. destruct (Nat.eqb_spec u t) as [Eu|N].
      * cbn [fact]. split; [reflexivity|]. change (next (set_pc (set_queue (set_next s nx) (q_begin s) (q_end s) (l ++ queued s)) t (Count l))) with nx. split; [intros ->; discriminate|]. split; [exact A2|]. split.
        -- intros x y B. apply link_adjacent; assumption.
        -- intros x B. apply link_last; assumption.
      * assert (Fu := it u). assert (Ru := fun e => R e u). assert (Du : forall x, In x (pending (threads s u)) -> ~ In x l) by (intros x X Y; exact (Fr x Y (proj1 (ip u x X)))).
        destruct (threads s u) as [|k|k|k|k e'|k e'|k| |b|b|b|b nn|r| |] eqn:PU; cbn [fact pending] in *; auto; change (next (set_pc (set_queue (set_next s nx) (q_begin s) (q_end s) (l ++ queued s)) t (Count l))) with nx.
        -- destruct Fu as (B & C). auto.
        -- destruct Fu as (B & C). auto.
        -- destruct Fu as (B & C). auto.
        -- destruct Fu as (B & C). auto.
        -- destruct Fu as (B & C & y & D & E). split; [exact B|]. split; [|exists y; auto]. rewrite Nx; [exact C|]. apply Cn, (adjacent_in _ _ _ E).
        -- destruct Fu as (B & C). split; [exact B|]. rewrite Nx; [exact C|]. intro X. exact (Ru b X eq_refl).
        -- destruct Fu as (B & C & D). repeat split; auto. rewrite Nx; [exact D|]. intro X. exact (Ru b X eq_refl).
    + intros u U. rewrite Th. destruct (Nat.eqb_spec u t) as [->|N]; [lia|apply io, U].
    + intro u. rewrite Th. destruct (Nat.eqb_spec u t) as [->|N]; [trivial|apply ih].
    + change (in_flight s = Z.of_nat (length (contents a)) + carried w (set_pc (set_queue (set_next s nx) (q_begin s) (q_end s) (l ++ queued s)) t (Count l))).
      rewrite ic. rewrite (carried_change w s (set_pc (set_queue (set_next s nx) (q_begin s) (q_end s) (l ++ queued s)) t (Count l)) t T); [|intros u N; rewrite !carries_load, Th; destruct (Nat.eqb_spec u t); [contradiction|reflexivity]].
      rewrite !carries_load, Th, Nat.eqb_refl, PC. unfold load_of. cbn [set_pc set_queue set_next held]. lia.
  - cbn [announce entry_of allowed] in *. destruct (held s t) eqn:H; [discriminate|]. eapply (inv_local s _ a _ t ReadBoth None); try reflexivity; try eassumption; at_t t; rewrite ?PC, ?H; cbn [pending is_link held_ok fact]; unfold load_of; auto; lia.
  - cbn [announce entry_of allowed] in *. destruct (held s t) eqn:H; [|discriminate]. eapply (inv_local s _ a _ t Finishing (Some n)); try reflexivity; try eassumption; at_t t; rewrite ?PC, ?H; cbn [pending is_link held_ok fact]; unfold load_of; auto; try lia; discriminate.
Qed.

Lemma choose_inv : forall s c a, inv s a -> no_reuse w (s, c) -> exists a', history a (snd (choose w s c)) a' /\ inv (fst (choose w s c)) a'.
Proof.
  intros s [t o|t] a I R; cbn [choose].
  - assert (stay : exists a', history a [] a' /\ inv s a') by (exists a; split; [constructor|exact I]).
    destruct (Nat.ltb_spec t w) as [T|T]; [|exact stay]. destruct (threads s t) eqn:PC; try exact stay. destruct (allowed s t o) eqn:A; [|exact stay]. cbn [fst snd].
    exists (set_client a t (Pending o)). split; [apply h_call; [|apply h_end]|apply call_inv; assumption]. assert (F := i_threads _ _ _ I t). rewrite PC in F. exact F.
  - destruct (Nat.ltb_spec t w) as [T|T]; [exact (step_inv s t a I T)|]. exists a. split; [constructor|exact I].
Qed.

Lemma run_inv : forall cs s a, inv s a -> Forall (no_reuse w) (fst (fst (run w s cs))) -> exists a', history a (snd (run w s cs)) a' /\ inv (snd (fst (run w s cs))) a'.
Proof.
  induction cs as [|c cs IH]; intros s a I G; cbn [run] in *; [exists a; split; [constructor|exact I]|].
  destruct (choose w s c) as (s', e) eqn:Ch. destruct (run w s' cs) as ((ss, z), es) eqn:Rn. cbn [fst snd] in *. inversion_clear G as [|? ? G1 G2].
  destruct (choose_inv s c a I G1) as (a1 & H1 & I1). rewrite Ch in H1, I1. cbn [fst snd] in *.
  assert (Q := IH s' a1 I1). rewrite Rn in Q. cbn [fst snd] in Q. destruct (Q G2) as (a2 & H2 & A). exists a2. split; [eapply history_app; eassumption|exact A].
Qed.

Lemma create_inv : inv create empty_queue.
Proof.
  constructor; try reflexivity; cbn [create empty_queue contents threads pending].
  - constructor.
  - intros x y ([|] & b & E); discriminate.
  - intros x [].
  - intros t x [].
  - intros t u l m x E. discriminate.
  - intros t U. split; reflexivity.
  - unfold carried. cbn [create in_flight length]. assert (Q : forall l, fold_right Z.add 0 (map (carries create) l) = 0) by (induction l as [|x l IH]; [reflexivity|cbn [map fold_right]; rewrite IH; reflexivity]). rewrite Q. reflexivity.
Qed.
End Q.

Theorem queue_ok : forall w cs, Forall (no_reuse w) (fst (fst (run w create cs))) ->
  exists a, history empty_queue (snd (run w create cs)) a /\ in_flight (snd (fst (run w create cs))) = Z.of_nat (length (contents a)) + carried w (snd (fst (run w create cs))) /\
    (forall t, threads (snd (fst (run w create cs))) t <> Fault) /\ (q_end (snd (fst (run w create cs))) = None <-> contents a = []).
Proof.
  intros w cs G. destruct (run_inv w cs _ _ (create_inv w) G) as (a & H & I). exists a. split; [exact H|]. split; [apply (i_count _ _ _ I)|]. split.
  - intros t E. assert (F := i_threads _ _ _ I t). rewrite E in F. exact F.
  - split; [intro E; apply (inv_end _ _ _ I E)|]. intro E. rewrite (i_end _ _ _ I), E. reflexivity.
Qed.

(** ** Every entry leaves exactly once *)
Lemma flat_map_change : forall (f g : nat -> list nat) l t, NoDup l -> In t l -> (forall u, u <> t -> g u = f u) ->
  exists r, Permutation (flat_map f l) (f t ++ r) /\ Permutation (flat_map g l) (g t ++ r).
Proof.
  intros f g l t. induction l as [|x l IH]; intros N I E; [destruct I|]. inversion_clear N as [|? ? N1 N2]. cbn [flat_map]. destruct (Nat.eq_dec x t) as [->|NE].
  - exists (flat_map f l). split; [reflexivity|]. replace (flat_map g l) with (flat_map f l); [reflexivity|]. clear IH I N2. induction l as [|z l IH]; [reflexivity|]. cbn [flat_map].
    rewrite IH by (intro X; apply N1; right; exact X). rewrite (E z); [reflexivity|]. intros ->. apply N1. left. reflexivity.
  - destruct I as [I|I]; [contradiction|]. destruct (IH N2 I E) as (r & A & B). exists (f x ++ r). rewrite (E x NE), A, B. split; apply Permutation_app_swap_app.
Qed.

Section Balance.
Variable w : nat.
Definition owed (st : status) : list nat := match st with Pending (Append l) => l | Ended Take (Some x) => [x] | _ => [] end.
Definition total (a : atomic) : list nat := contents a ++ flat_map (fun t => owed (client a t)) (seq 0 w).
Definition confined (a : atomic) : Prop := forall t, (w <= t)%nat -> client a t = Ready.

Lemma total_client : forall a q t st, (t < w)%nat -> Permutation (q ++ owed st) (contents a ++ owed (client a t)) ->
  Permutation (total (set_client (mkatomic q (client a)) t st)) (total a).
Proof.
  intros a q t st T P. unfold total. destruct (flat_map_change (fun u => owed (client a u)) (fun u => owed (client (set_client (mkatomic q (client a)) t st) u)) (seq 0 w) t) as (r & A & B).
  - apply seq_NoDup.
  - apply in_seq. lia.
  - intros u N. cbn [set_client client]. destruct (Nat.eqb_spec u t); [contradiction|reflexivity].
  - rewrite A, B. cbn [set_client client contents]. rewrite Nat.eqb_refl. rewrite !app_assoc, P. reflexivity.
Qed.

Lemma balance : forall a es b, history a es b -> confined a -> (forall t o, In (Call t o) es -> (t < w)%nat) ->
  Permutation (taken es ++ total b) (total a ++ given es).
Proof.
  assert (CC : forall a q t st, confined a -> (t < w)%nat -> confined (set_client (mkatomic q (client a)) t st)). { intros a q t st C T u U. cbn [set_client client]. destruct (Nat.eqb_spec u t); [lia|apply C, U]. }
  assert (LT : forall a t st, confined a -> client a t = st -> st <> Ready -> (t < w)%nat). { intros a t st C E N. destruct (Nat.lt_ge_cases t w) as [L|L]; [exact L|]. rewrite (C t L) in E. congruence. }
  intros a es b Q. induction Q as [a|a t o es b C Q IH|a t o es b C Q IH|a t o r es b C Q IH]; intros Cf Ev.
  - cbn. rewrite app_nil_r. reflexivity.
  - assert (T : (t < w)%nat) by exact (Ev t o (or_introl eq_refl)). destruct a as [q cl]. specialize (IH (CC (mkatomic q cl) q t (Pending o) Cf T) (fun t o I => Ev t o (or_intror I))).
    change (taken (Call t o :: es)) with (taken es). rewrite IH. change (given (Call t o :: es)) with (owed (Pending o) ++ given es). rewrite !app_assoc. apply Permutation_app_tail.
    unfold total at 1. destruct (flat_map_change (fun u => owed (client (mkatomic q cl) u)) (fun u => owed (client (set_client (mkatomic q cl) t (Pending o)) u)) (seq 0 w) t) as (r & A & B).
    + apply seq_NoDup.
    + apply in_seq. lia.
    + intros u N. cbn [set_client client]. destruct (Nat.eqb_spec u t); [contradiction|reflexivity].
    + unfold total. rewrite A, B. rewrite C. cbn [set_client client contents]. rewrite Nat.eqb_refl. cbn [owed app]. rewrite <- app_assoc. apply Permutation_app_head, Permutation_app_comm.
  - assert (T := LT _ _ _ Cf C ltac:(discriminate)). rewrite IH; [|apply CC; assumption|exact Ev]. apply Permutation_app_tail. apply total_client; [exact T|]. rewrite C.
    destruct o as [l| |]; cbn [effect fst snd owed]; [rewrite app_nil_r; reflexivity| |reflexivity]. destruct (contents a) as [|x q]; cbn [fst snd owed]; [reflexivity|]. rewrite app_nil_r. symmetry. apply Permutation_cons_append.
  - assert (T := LT _ _ _ Cf C ltac:(discriminate)). destruct a as [q cl]. specialize (IH (CC (mkatomic q cl) q t Ready Cf T) (fun t o I => Ev t o (or_intror I))).
    change (given (Return t o r :: es)) with (given es). assert (E : taken (Return t o r :: es) = owed (Ended o r) ++ taken es) by (destruct o, r; reflexivity). rewrite E, <- app_assoc. cbn [contents client set_client] in IH. rewrite IH. rewrite app_assoc. apply Permutation_app_tail.
    unfold total. destruct (flat_map_change (fun u => owed (client (mkatomic q cl) u)) (fun u => owed (client (set_client (mkatomic q cl) t Ready) u)) (seq 0 w) t) as (m & A & B).
    + apply seq_NoDup.
    + apply in_seq. lia.
    + intros u N. cbn [set_client client]. destruct (Nat.eqb_spec u t); [contradiction|reflexivity].
    + cbn [contents client set_client] in *. rewrite A, B, C. rewrite Nat.eqb_refl. cbn [owed app]. apply Permutation_app_swap_app.
Qed.
End Balance.

Lemma run_calls : forall w cs s t o, In (Call t o) (snd (run w s cs)) -> (t < w)%nat.
Proof.
  intros w cs. induction cs as [|c cs IH]; intros s t o I; cbn [run] in I; [destruct I|]. destruct (choose w s c) as (s', e) eqn:Ch. destruct (run w s' cs) as ((ss, z), es) eqn:Rn. cbn [snd] in I. apply in_app_or in I as [I|I].
  - destruct c as [u p|u]; cbn [choose] in Ch; destruct (Nat.ltb_spec u w) as [L|L]; try (injection Ch as <- <-; destruct I).
    + destruct (threads s u); try (injection Ch as <- <-; destruct I). destruct (allowed s u p); injection Ch as <- <-; [|destruct I]. destruct I as [I|[]]. injection I as -> ->. exact L.
    + exfalso. replace e with (snd (step s u)) in I by (rewrite Ch; reflexivity). unfold step, goto in I. clear Ch Rn. destruct (threads s u) as [|l|l|l|l e'|l e'|l| |b|b|b|b nx|r| |];
        try (destruct (q_begin s)); try (destruct (q_end s)); repeat match type of I with context [if ?b then _ else _] => destruct b end; cbn [snd In] in I; try (destruct I as [I|I]; [discriminate I|exact I]); try exact I.
  - apply (IH s' t o). rewrite Rn. exact I.
Qed.

Theorem exactly_once : forall w cs, Forall (no_reuse w) (fst (fst (run w create cs))) -> (forall t, threads (snd (fst (run w create cs))) t = Idle) -> q_end (snd (fst (run w create cs))) = None ->
  Permutation (taken (snd (run w create cs))) (given (snd (run w create cs))).
Proof.
  intros w cs G Id E. destruct (run_inv w cs _ _ (create_inv w) G) as (a & H & I). assert (B := balance w _ _ _ H (fun t _ => eq_refl) (run_calls w cs create)).
  assert (Z : total w empty_queue = []). { unfold total. cbn [empty_queue contents client app]. induction (seq 0 w) as [|x l IH]; [reflexivity|exact IH]. }
  assert (Z2 : total w a = []). { unfold total. destruct (inv_end _ _ _ I E) as (-> & _). cbn [app]. induction (seq 0 w) as [|x l IH]; [reflexivity|]. cbn [flat_map]. rewrite IH. assert (F := i_threads _ _ _ I x). rewrite Id in F. cbn [fact] in F. rewrite F. reflexivity. }
  rewrite Z, Z2, app_nil_r in B. exact B.
Qed.

(** ** Clients that append no entry twice *)
Definition within (g : list nat) (x : option nat) : Prop := match x with Some e => In e g | None => True end.
Definition mentions (p : pc) : list nat :=
  match p with
  | Count l | LoadEnd l | SwapEmpty l | Appended l => l
  | SwapEnd l e | Link l e => e :: l
  | SwapLast b | Next b | NextAgain b | SwapBegin b None => [b]
  | SwapBegin b (Some n) => [b; n]
  | _ => []
  end.
Record known (s : state) (g : list nat) : Prop := mkknown {
  k_begin : within g (q_begin s); k_end : within g (q_end s);
  k_next : forall x, within g (next s x); k_threads : forall t, incl (mentions (threads s t)) g }.

Lemma within_hd : forall l g, incl l g -> within g (hd_error l).
Proof. intros [|x l] g I; cbn; [exact Logic.I|apply I; left; reflexivity]. Qed.
Lemma within_last : forall l g, incl l g -> within g (last_entry l).
Proof. intros l g I. apply within_hd. intros x X. apply I, in_rev, X. Qed.
Lemma within_incl : forall g h x, incl g h -> within g x -> within h x.
Proof. intros g h [x|] I W; [apply I, W|exact W]. Qed.
Lemma link_within : forall l nx g, (forall x, within g (nx x)) -> incl l g -> forall x, within g (link_list nx l x).
Proof.
  induction l as [|y l IH]; intros nx g N I x; cbn [link_list]; [apply N|]. apply IH; [|intros z Z; apply I; right; exact Z].
  intro z. unfold write_next. destruct (Nat.eqb z y); [apply within_hd; intros u U; apply I; right; exact U|apply N].
Qed.

Lemma known_step : forall s t g, known s g -> known (fst (step s t)) g.
Proof.
  intros s t g K. assert (P : forall s' p, q_begin s' = q_begin s -> q_end s' = q_end s -> next s' = next s -> threads s' = threads s -> incl (mentions p) g -> known (set_pc s' t p) g).
  { intros s' p E1 E2 E3 E4 M. destruct K as [K1 K2 K3 K4]. constructor; cbn [set_pc q_begin q_end next threads]; rewrite ?E1, ?E2, ?E3, ?E4; auto. intro u. destruct (Nat.eqb u t); auto. }
  assert (Q : forall b e q p, within g b -> within g e -> incl (mentions p) g -> known (set_pc (set_queue s b e q) t p) g).
  { intros b e q p W1 W2 M. destruct K as [K1 K2 K3 K4]. constructor; cbn [set_pc set_queue q_begin q_end next threads]; auto. intro u. destruct (Nat.eqb u t); auto. }
  assert (K' := K). destruct K' as [K1 K2 K3 K4]. assert (M := K4 t). unfold step, goto. destruct (threads s t) as [|l|l|l|l e|l e|l| |b|b|b|b nx|r| |]; cbn [fst mentions] in *; try exact K.
  - apply P; try reflexivity; assumption.
  - apply P; try reflexivity. destruct (q_end s) as [e|]; cbn [mentions]; auto. intros x [<-|X]; [exact K2|apply M, X].
  - destruct (_ && _); cbn [fst]; [apply Q|apply P]; auto using within_hd, within_last.
  - assert (incl l g) by (intros x X; apply M; right; exact X). destruct (same _ _); cbn [fst]; [apply Q|apply P]; auto using within_last.
  - assert (incl l g) by (intros x X; apply M; right; exact X). constructor; cbn [set_pc set_next q_begin q_end next threads]; auto.
    + intro x. unfold write_next. destruct (Nat.eqb x e); [apply within_hd; assumption|apply K3].
    + intro u. destruct (Nat.eqb u t); auto.
  - apply P; auto. intros x [].
  - assert (F : known (set_pc s t Fault) g) by (apply P; auto; intros x []).
    assert (G : known (set_pc s t (Taken None)) g) by (apply P; auto; intros x []).
    assert (H : forall b p, q_begin s = Some b -> mentions p = [b] -> known (set_pc s t p) g). { intros b p E1 E2. apply P; auto. rewrite E2. rewrite E1 in K1. intros x [<-|[]]. exact K1. }
    destruct (q_begin s) as [b|], (q_end s) as [e|]; cbn [fst]; auto. apply (H b); [reflexivity|]. destruct (Nat.eqb b e); reflexivity.
  - destruct (_ && _); cbn [fst]; [apply Q|apply P]; cbn; auto; intros x [].
  - apply P; auto. destruct (next s b); [exact M|intros x []].
  - apply P; auto. assert (N := K3 b). destruct (next s b); [|exact M]. intros x [<-|[<-|[]]]; [apply M; left; reflexivity|exact N].
  - destruct (same _ _); cbn [fst]; [apply Q|apply P]; auto; try (intros x []; fail). destruct nx; cbn; [apply M; right; left; reflexivity|exact Logic.I].
  - assert (KP := P s Idle eq_refl eq_refl eq_refl eq_refl ltac:(intros x [])). destruct KP as [A1 A2 A3 A4]. constructor; assumption.
  - assert (KP := P (set_flight s (in_flight s - 1)) Idle eq_refl eq_refl eq_refl eq_refl ltac:(intros x [])). destruct KP as [A1 A2 A3 A4]. constructor; assumption.
Qed.

Lemma step_given : forall s t, given (snd (step s t)) = [].
Proof.
  intros s t. unfold step, goto. destruct (threads s t) as [|l|l|l|l e|l e|l| |b|b|b|b nx|r| |]; try reflexivity.
  - destruct (_ && _); reflexivity.
  - destruct (same _ _); reflexivity.
  - destruct (q_begin s), (q_end s); reflexivity.
  - destruct (_ && _); reflexivity.
  - destruct (same _ _); reflexivity.
Qed.

Lemma given_app : forall es fs, given (es ++ fs) = given es ++ given fs.
Proof. intros. apply flat_map_app. Qed.

Lemma nodup_split : forall (l k : list nat), NoDup (l ++ k) -> forall x, In x l -> ~ In x k.
Proof. induction l as [|y l IH]; intros k N x I; [destruct I|]. inversion_clear N as [|? ? N1 N2]. destruct I as [->|I]; [intro X; apply N1, in_or_app; right; exact X|exact (IH k N2 x I)]. Qed.

Lemma known_run : forall w cs s g, known s g -> NoDup (g ++ given (snd (run w s cs))) -> Forall (no_reuse w) (fst (fst (run w s cs))).
Proof.
  intros w cs. induction cs as [|c cs IH]; intros s g K N; cbn [run] in *; [constructor|]. destruct (choose w s c) as (s', e) eqn:Ch. destruct (run w s' cs) as ((ss, z), es) eqn:Rn. cbn [fst snd] in *. rewrite given_app, app_assoc in N.
  assert (G := IH s' (g ++ given e)). rewrite Rn in G. cbn [fst snd] in G. constructor.
  - destruct c as [t o|t]; [|exact I]. destruct o as [l| |]; try exact I. cbn [no_reuse snd fst]. intros T Id A x u X. cbn [choose] in Ch. destruct (Nat.ltb_spec t w); [|lia]. rewrite Id, A in Ch. injection Ch as <- <-.
    change (given [Call t (Append l)]) with (l ++ []) in N. rewrite app_nil_r in N. rewrite <- app_assoc in N. assert (M := k_threads _ _ K u).
    destruct (threads s u) as [| | | | | | | | | |b|b nx| | |] eqn:E; try exact I; intros ->; refine (nodup_split _ _ N x _ (in_or_app _ _ _ (or_introl X))); apply M; [left; reflexivity|]. destruct nx; left; reflexivity.
  - apply G; [|exact N]. assert (D : known s (g ++ given e)). { destruct K as [K1 K2 K3 K4]. assert (J : incl g (g ++ given e)) by (intros x X; apply in_or_app; left; exact X). constructor; eauto using within_incl, incl_tran. }
    destruct c as [t o|t]; cbn [choose] in Ch.
    + destruct (Nat.ltb_spec t w); [|injection Ch as <- <-; exact D]. destruct (threads s t); try (injection Ch as <- <-; exact D). destruct (allowed s t o); [|injection Ch as <- <-; exact D]. injection Ch as <- <-.
      assert (J : incl (mentions (entry_of o)) (g ++ given [Call t o])). { destruct o as [l| |]; try (intros x []; fail). intros x X. apply in_or_app. right. change (In x (l ++ [])). rewrite app_nil_r. exact X. }
      destruct D as [K1 K2 K3 K4]. destruct o as [l| |]; constructor; cbn [announce set_pc set_queue set_next q_begin q_end next threads]; auto; try (apply link_within; assumption); intro u; destruct (Nat.eqb u t); auto.
    + destruct (Nat.ltb_spec t w); [|injection Ch as <- <-; exact D]. replace s' with (fst (step s t)) by (rewrite Ch; reflexivity). apply known_step, D.
Qed.

Lemma fresh_no_reuse : forall w cs, NoDup (given (snd (run w create cs))) -> Forall (no_reuse w) (fst (fst (run w create cs))).
Proof. intros w cs N. apply (known_run w cs create []); [|exact N]. constructor; cbn; auto. intros t x []. Qed.

(** ** A thread left alone finishes its call *)
Fixpoint alone (s : state) (t k : nat) : state := match k with O => s | S k => alone (fst (step s t)) t k end.
Definition ends (s : state) (t n : nat) : Prop := exists k, (k <= n)%nat /\ threads (alone s t k) t = Idle.
Lemma ends_step : forall s t n, ends (fst (step s t)) t n -> ends s t (S n).
Proof. intros s t n (k & K & E). exists (S k). split; [lia|exact E]. Qed.
Lemma ends_more : forall s t n m, (n <= m)%nat -> ends s t n -> ends s t m.
Proof. intros s t n m L (k & K & E). exists k. split; [lia|exact E]. Qed.
Lemma ends_idle : forall s t n, threads s t = Idle -> ends s t n.
Proof. intros s t n E. exists O. split; [lia|exact E]. Qed.

Lemma alone_run : forall w t k s, (t < w)%nat -> snd (fst (run w s (repeat (Steps t) k))) = alone s t k.
Proof.
  intros w t k. induction k as [|k IH]; intros s T; [reflexivity|]. cbn [repeat run alone choose]. destruct (Nat.ltb_spec t w); [|lia]. destruct (step s t) as (s', e). destruct (run w s' (repeat (Steps t) k)) as ((ss, z), es) eqn:R.
  cbn [fst snd]. rewrite <- IH by exact T. rewrite R. reflexivity.
Qed.

Section Alone.
Variables (w t : nat).
Hypothesis T : (t < w)%nat.
Definition no_link (s : state) : Prop := forall u l e, u <> t -> threads s u <> Link l e.

Lemma step_other : forall s u, u <> t -> threads (fst (step s t)) u = threads s u.
Proof.
  intros s u N. assert (P : forall s0 p, threads (set_pc s0 t p) u = threads s0 u) by (intros s0 p; cbn [set_pc threads]; destruct (Nat.eqb_spec u t); [contradiction|reflexivity]).
  unfold step, goto. destruct (threads s t) as [|l|l|l|l e|l e|l| |b|b|b|b nx|r| |]; cbn [fst]; rewrite ?P; try reflexivity.
  - destruct (_ && _); cbn [fst]; rewrite P; reflexivity.
  - destruct (same _ _); cbn [fst]; rewrite P; reflexivity.
  - destruct (q_begin s), (q_end s); cbn [fst]; rewrite P; reflexivity.
  - destruct (_ && _); cbn [fst]; rewrite P; reflexivity.
  - destruct (same _ _); cbn [fst]; rewrite P; reflexivity.
  - cbn [set_held threads]. rewrite P. reflexivity.
  - cbn [set_held threads]. rewrite P. reflexivity.
Qed.
Lemma pc_here : forall s p, threads (set_pc s t p) t = p.
Proof. intros. cbn [set_pc threads]. rewrite Nat.eqb_refl. reflexivity. Qed.

Lemma ends_last : forall s, match threads s t with Appended _ | Taken _ | Finishing => True | _ => False end -> ends s t 1.
Proof.
  intros s P. apply ends_step, ends_idle. unfold step. destruct (threads s t); try contradiction; cbn [fst set_held threads]; apply pc_here.
Qed.
Lemma ends_link : forall s l e, threads s t = Link l e -> ends s t 2.
Proof. intros s l e P. apply ends_step, ends_last. unfold step, goto. rewrite P. cbn [fst]. rewrite pc_here. exact I. Qed.

Lemma ends_read : forall s a, inv w s a -> no_link s -> threads s t = ReadBoth -> ends s t 5.
Proof.
  intros s a J N P. destruct J as [ib ie ind il ila iq ip ik it io ih ic].
  assert (S1 : forall b e, q_begin s = b -> q_end s = e -> fst (step s t) = set_pc s t (match b, e with None, None => Taken None | Some b, Some e => if Nat.eqb b e then SwapLast b else Next b | _, _ => Fault end)).
  { intros b e <- <-. unfold step, goto. rewrite P. destruct (q_begin s), (q_end s); reflexivity. }
  specialize (S1 _ _ ib ie). destruct (contents a) as [|x [|y q]] eqn:C.
  - apply (ends_more s t 2); [lia|]. apply ends_step. rewrite S1. apply ends_last. rewrite pc_here. exact I.
  - apply (ends_more s t 3); [lia|]. apply ends_step. rewrite S1. cbn [hd_error last_entry rev app]. rewrite Nat.eqb_refl. apply ends_step.
    set (s1 := set_pc s t (SwapLast x)). assert (S2 : fst (step s1 t) = set_pc (set_queue s1 None None (remove_entry x (queued s1))) t (Taken (Some x))).
    { unfold step, goto. unfold s1 at 1. rewrite pc_here. replace (q_begin s1) with (Some x) by (symmetry; exact ib). replace (q_end s1) with (Some x) by (symmetry; exact ie). cbn [same]. rewrite Nat.eqb_refl. reflexivity. }
    rewrite S2. apply ends_last. rewrite pc_here. exact I.
  - destruct (last_entry (x :: y :: q)) as [e|] eqn:L; [|apply last_none in L; discriminate].
    assert (Ad : adjacent (x :: y :: q) x y) by (exists [], q; reflexivity). assert (NE : Nat.eqb x e = false) by (apply Nat.eqb_neq; intros ->; exact (adjacent_not_last _ _ _ ind Ad L)).
    assert (Nx : next s x = Some y). { destruct (il x y Ad) as [E|(_ & u & l & E)]; [exact E|]. exfalso. destruct (Nat.eq_dec u t) as [->|D]; [congruence|]. exact (N u l x D E). }
    apply ends_step. rewrite S1. cbn [hd_error]. rewrite NE. apply ends_step.
    set (s1 := set_pc s t (Next x)). assert (S2 : fst (step s1 t) = set_pc s1 t (NextAgain x)) by (unfold step, goto; unfold s1 at 1; rewrite pc_here; change (next s1 x) with (next s x); rewrite Nx; reflexivity).
    rewrite S2. apply ends_step. set (s2 := set_pc s1 t (NextAgain x)). assert (S3 : fst (step s2 t) = set_pc s2 t (SwapBegin x (next s x))) by (unfold step, goto; unfold s2 at 1; rewrite pc_here; reflexivity).
    rewrite S3. apply ends_step. set (s3 := set_pc s2 t (SwapBegin x (next s x))). assert (S4 : fst (step s3 t) = set_pc (set_queue s3 (next s x) (q_end s3) (remove_entry x (queued s3))) t (Taken (Some x))).
    { unfold step, goto. unfold s3 at 1. rewrite pc_here. replace (q_begin s3) with (Some x) by (symmetry; exact ib). cbn [same]. rewrite Nat.eqb_refl. reflexivity. }
    rewrite S4. apply ends_last. rewrite pc_here. exact I.
Qed.

Lemma next_state : forall s a, inv w s a -> no_link s -> exists a', inv w (fst (step s t)) a' /\ no_link (fst (step s t)).
Proof.
  intros s a J N. destruct (step_inv w s t a J T) as (a' & _ & J'). exists a'. split; [exact J'|]. intros u l e D. rewrite step_other by exact D. apply N, D.
Qed.

Lemma ends_load : forall s a l, inv w s a -> no_link s -> threads s t = LoadEnd l -> ends s t 4.
Proof.
  intros s a l J N P. destruct J as [ib ie ind il ila iq ip ik it io ih ic]. destruct (contents a) as [|x q] eqn:C.
  - apply ends_step. assert (S1 : fst (step s t) = set_pc s t (SwapEmpty l)) by (unfold step, goto; rewrite P, ie; reflexivity). rewrite S1. apply (ends_more _ t 2); [lia|]. apply ends_step.
    set (s1 := set_pc s t (SwapEmpty l)). assert (S2 : fst (step s1 t) = set_pc (set_queue s1 (hd_error l) (last_entry l) (queued s1)) t (Appended l)).
    { unfold step, goto. unfold s1 at 1. rewrite pc_here. replace (q_begin s1) with (@None nat) by (symmetry; exact ib). replace (q_end s1) with (@None nat) by (symmetry; exact ie). reflexivity. }
    rewrite S2. apply ends_last. rewrite pc_here. exact I.
  - destruct (last_entry (x :: q)) as [e|] eqn:L; [|apply last_none in L; discriminate]. apply ends_step. assert (S1 : fst (step s t) = set_pc s t (SwapEnd l e)) by (unfold step, goto; rewrite P, ie; reflexivity). rewrite S1. apply ends_step.
    set (s1 := set_pc s t (SwapEnd l e)). assert (S2 : fst (step s1 t) = set_pc (set_queue s1 (q_begin s1) (last_entry l) (queued s1)) t (Link l e)).
    { unfold step, goto. unfold s1 at 1. rewrite pc_here. replace (q_end s1) with (Some e) by (symmetry; exact ie). cbn [same]. rewrite Nat.eqb_refl. reflexivity. }
    rewrite S2. eapply ends_link. apply pc_here.
Qed.

Lemma ends_swap : forall s a b nx, inv w s a -> no_link s -> threads s t = SwapBegin b nx -> ends s t 6.
Proof.
  intros s a b nx J N P. destruct (next_state s a J N) as (a1 & J1 & N1). apply ends_step. unfold step, goto in *. rewrite P in *. destruct (same _ _); cbn [fst] in *.
  - apply (ends_more _ t 1); [lia|]. apply ends_last. rewrite pc_here. exact I.
  - apply (ends_read _ a1); auto. apply pc_here.
Qed.
Lemma ends_again : forall s a b, inv w s a -> no_link s -> threads s t = NextAgain b -> ends s t 7.
Proof.
  intros s a b J N P. destruct (next_state s a J N) as (a1 & J1 & N1). apply ends_step. unfold step, goto in *. rewrite P in *. cbn [fst] in *. apply (ends_swap _ a1 b (next s b)); auto. apply pc_here.
Qed.

Lemma alone_ends : forall s a, inv w s a -> no_link s -> ends s t 8.
Proof.
  intros s a J N. destruct (next_state s a J N) as (a1 & J1 & N1). assert (Fa := i_threads _ _ _ J t). destruct (threads s t) as [|l|l|l|l e|l e|l| |b|b|b|b nx|r| |] eqn:P; cbn [fact] in Fa.
  - apply ends_idle, P.
  - apply (ends_more s t 5); [lia|]. apply ends_step. apply (ends_load _ a1 l); auto. unfold step, goto. rewrite P. apply pc_here.
  - apply (ends_more s t 4); [lia|]. eapply ends_load; eassumption.
  - apply (ends_more s t 5); [lia|]. apply ends_step. unfold step, goto in *. rewrite P in *. destruct (_ && _); cbn [fst] in *.
    + apply (ends_more _ t 1); [lia|]. apply ends_last. rewrite pc_here. exact I.
    + apply (ends_load _ a1 l); auto. apply pc_here.
  - apply (ends_more s t 5); [lia|]. apply ends_step. unfold step, goto in *. rewrite P in *. destruct (same _ _); cbn [fst] in *.
    + apply (ends_more _ t 2); [lia|]. eapply ends_link. apply pc_here.
    + apply (ends_load _ a1 l); auto. apply pc_here.
  - apply (ends_more s t 2); [lia|]. eapply ends_link. eassumption.
  - apply (ends_more s t 1); [lia|]. apply ends_last. rewrite P. exact I.
  - apply (ends_more s t 5); [lia|]. eapply ends_read; eassumption.
  - apply (ends_more s t 6); [lia|]. apply ends_step. unfold step, goto in *. rewrite P in *. destruct (_ && _); cbn [fst] in *.
    + apply (ends_more _ t 1); [lia|]. apply ends_last. rewrite pc_here. exact I.
    + apply (ends_read _ a1); auto. apply pc_here.
  - apply ends_step. unfold step, goto in *. rewrite P in *. cbn [fst] in *. destruct (next s b).
    + apply (ends_again _ a1 b); auto. apply pc_here.
    + apply (ends_more _ t 5); [lia|]. apply (ends_read _ a1); auto. apply pc_here.
  - apply (ends_more s t 7); [lia|]. eapply ends_again; eassumption.
  - apply (ends_more s t 6); [lia|]. eapply ends_swap; eassumption.
  - apply (ends_more s t 1); [lia|]. apply ends_last. rewrite P. exact I.
  - apply (ends_more s t 1); [lia|]. apply ends_last. rewrite P. exact I.
  - destruct Fa.
Qed.
End Alone.

Theorem progress_alone : forall w cs t, Forall (no_reuse w) (fst (fst (run w create cs))) -> (t < w)%nat ->
  (forall u l e, u <> t -> threads (snd (fst (run w create cs))) u <> Link l e) ->
  exists k, (k <= 8)%nat /\ threads (snd (fst (run w (snd (fst (run w create cs))) (repeat (Steps t) k)))) t = Idle.
Proof.
  intros w cs t G T N. destruct (run_inv w cs _ _ (create_inv w) G) as (a & _ & J). destruct (alone_ends w t T _ a J N) as (k & K & E). exists k. split; [exact K|]. rewrite alone_run by exact T. exact E.
Qed.
