(** Termination of macro expansion. *)
From Coq Require Import List ZArith Lia Bool Wellfounded.
From Verif Require Import MacroModel MacroSpec MacroProofs.
Import ListNotations.
Open Scope Z_scope.

(** ** Parentheses *)
Lemma total_app : forall a b, total (a ++ b) = total a + total b.
Proof. induction a as [|t a IH]; intro b; cbn [app total]; [lia|rewrite IH; lia]. Qed.
Lemma closed_total : forall l, closed l -> total l <= 0.
Proof. intros l C. exact (C [] l eq_refl). Qed.
Lemma closed_suffix : forall a b, closed (a ++ b) -> closed b.
Proof. intros a b C x y E. apply (C (a ++ x) y). rewrite E, app_assoc. reflexivity. Qed.
Lemma closed_nil : closed [].
Proof. intros a b E. symmetry in E. apply app_eq_nil in E. destruct E as [_ ->]. cbn. lia. Qed.
(** A suffix of [a ++ b] is a suffix of [b] or goes into [a]. *)
Lemma suffix_split : forall {A : Type} (a b x y : list A), a ++ b = x ++ y -> (exists z, b = z ++ y) \/ (exists z, a = x ++ z /\ y = z ++ b).
Proof.
  intros A. induction a as [|t a IH]; intros b x y E.
  - left. exists x. exact E.
  - destruct x as [|u x]; [right; exists (t :: a); split; [reflexivity|symmetry; exact E]|]. injection E as <- E. destruct (IH b x y E) as [[z Z]|[z [Z1 Z2]]]; [left; exists z; exact Z|right; exists z; split; [rewrite Z1; reflexivity|exact Z2]].
Qed.
Lemma closed_app_iff : forall a b, closed (a ++ b) <-> closed b /\ forall x y, a = x ++ y -> total y + total b <= 0.
Proof.
  intros a b. split.
  - intro C. split; [exact (closed_suffix a b C)|]. intros x y ->. rewrite <- total_app. apply (C x). rewrite app_assoc. reflexivity.
  - intros [C D] x y E. destruct (suffix_split a b x y E) as [[z Z]|[z [Z1 Z2]]]; [exact (C z y Z)|]. subst. rewrite total_app. exact (D x z eq_refl).
Qed.
(** Tokens may be taken out as long as not more are closed than opened by them. *)
Lemma closed_drop : forall x v y, closed (x ++ v ++ y) -> 0 <= total v -> closed (x ++ y).
Proof.
  intros x v y C V. apply closed_app_iff in C. destruct C as [C1 C2]. apply closed_app_iff. split; [exact (closed_suffix v y C1)|]. intros a b E. specialize (C2 a b E). rewrite total_app in C2. lia.
Qed.
Lemma closed_insert : forall x l y, closed (x ++ y) -> closed l -> closed (x ++ l ++ y).
Proof.
  intros x l y C L. apply closed_app_iff in C. destruct C as [C1 C2]. pose proof (closed_total l L) as T. apply closed_app_iff. split.
  - apply closed_app_iff. split; [exact C1|]. intros a b ->. pose proof (closed_total y C1) as Y. pose proof (L a b eq_refl). lia.
  - intros a b E. specialize (C2 a b E). rewrite total_app. lia.
Qed.
Lemma closed_swap : forall x t u y, closed (x ++ t :: y) -> value u = value t -> closed (x ++ u :: y).
Proof.
  intros x t u y C V. change (x ++ u :: y) with (x ++ [u] ++ y). change (x ++ t :: y) with (x ++ [t] ++ y) in C. apply closed_app_iff in C. destruct C as [C1 C2]. apply closed_app_iff. split.
  - apply closed_app_iff in C1. destruct C1 as [C3 C4]. apply closed_app_iff. split; [exact C3|]. intros a b E. destruct a as [|w a].
    + cbn [app] in E. subst b. specialize (C4 [] [t] eq_refl). cbn [total] in *. lia.
    + injection E as _ E. symmetry in E. apply app_eq_nil in E. destruct E as [_ ->]. specialize (C4 [t] [] eq_refl). cbn [total] in *. lia.
  - intros a b E. specialize (C2 a b E). rewrite total_app in *. cbn [total] in *. lia.
Qed.

Lemma total_parens : forall l, total (parens l) = total l.
Proof. induction l as [|t l IH]; [reflexivity|]. unfold parens in *. cbn [filter]. destruct t; cbn [total value]; lia. Qed.
Lemma parens_app : forall a b, parens (a ++ b) = parens a ++ parens b.
Proof. intros a b. apply filter_app. Qed.
Lemma parens_suffix : forall l x y, parens l = x ++ y -> exists a b, l = a ++ b /\ y = parens b.
Proof.
  induction l as [|t l IH]; intros x y E.
  - exists [], []. symmetry in E. apply app_eq_nil in E. destruct E as [_ ->]. split; reflexivity.
  - destruct x as [|u x]; [exists [], (t :: l); split; [reflexivity|symmetry; exact E]|]. cbn [app] in E.
    assert (exists x1, parens l = x1 ++ y) as [x1 E1] by (unfold parens in *; cbn [filter] in E; destruct t; try (exists (u :: x); exact E); exists x; injection E as _ E; exact E).
    destruct (IH x1 y E1) as (a & b & -> & Y). exists (t :: a), b. split; [reflexivity|exact Y].
Qed.
Lemma closed_parens : forall l, closed (parens l) <-> closed l.
Proof.
  intro l. split; intros C a b E.
  - subst l. rewrite parens_app in C. rewrite <- total_parens. exact (C _ _ eq_refl).
  - destruct (parens_suffix l a b E) as (x & y & L & ->). rewrite total_parens. exact (C x y L).
Qed.

(** ** The replacement list with its arguments *)
Section Assemble.
Variable paste : option tok -> option tok -> list tok.
Hypothesis PASTE : keeps_parens paste.
Definition filled (raw ex : list (list tok)) (r : replacement) : list tok :=
  match r with
  | Tokens l => l
  | Argument i => nth i ex []
  | Hash _ => []
  | Paste p q => (match p with Some i => nth i raw [] | None => [] end) ++ (match q with inl i => nth i raw [] | inr t => [t] end)
  end.
Lemma drop_space_parens : forall l, parens (drop_while is_space l) = parens l.
Proof. induction l as [|t l IH]; [reflexivity|]. cbn [drop_while]. destruct t; cbn [is_space]; try reflexivity; exact IH. Qed.
Lemma parens_rev : forall l, parens (rev l) = rev (parens l).
Proof. induction l as [|t l IH]; [reflexivity|]. cbn [rev]. rewrite parens_app, IH. unfold parens. destruct t; cbn [filter rev]; rewrite ?app_nil_r; reflexivity. Qed.
Lemma last_token_parens : forall l a t, last_token l = Some (a, t) -> parens l = parens (a ++ [t]).
Proof.
  intros l a t H. unfold last_token in H. destruct (drop_while is_space (rev l)) as [|u r] eqn:E; [discriminate|]. injection H as <- <-. pose proof (drop_space_parens (rev l)) as D. rewrite E, parens_rev in D.
  rewrite <- (rev_involutive (parens l)), <- D, <- parens_rev. cbn [rev]. reflexivity.
Qed.
Lemma assemble_parens : forall raw ex b acc l, assemble paste raw ex acc b = Some l -> parens l = parens (acc ++ flat_map (filled raw ex) b).
Proof.
  intros raw ex. induction b as [|r b IH]; intros acc l H; cbn [assemble flat_map] in *; [rewrite app_nil_r; congruence|]. destruct r as [ts|i|i|p q].
  - rewrite (IH _ _ H). cbn [filled]. rewrite app_assoc. reflexivity.
  - rewrite (IH _ _ H). cbn [filled]. rewrite app_assoc. reflexivity.
  - rewrite (IH _ _ H). cbn [filled app]. rewrite !parens_app. cbn [parens filter]. rewrite app_nil_r. reflexivity.
  - cbn [filled].
    set (prefix := match p with Some i => match rev (nth i raw []) with [] => Some (acc, None) | t :: r => Some (acc ++ rev r, Some t) end | None => match last_token acc with Some (l, t) => Some (l, Some t) | None => None end end) in H.
    assert (P : forall acc1 t, prefix = Some (acc1, t) -> parens (acc1 ++ given t) = parens (acc ++ match p with Some i => nth i raw [] | None => [] end)).
    { intros acc1 t Q. unfold prefix in Q. destruct p as [i|].
      - destruct (rev (nth i raw [])) as [|u r] eqn:E.
        + injection Q as <- <-. rewrite <- (rev_involutive (nth i raw [])), E. reflexivity.
        + injection Q as <- <-. rewrite <- (rev_involutive (nth i raw [])), E. cbn [rev given]. rewrite app_assoc. reflexivity.
      - destruct (last_token acc) as [[a u]|] eqn:E; [|discriminate]. injection Q as <- <-. rewrite app_nil_r. symmetry. exact (last_token_parens _ _ _ E). }
    destruct prefix as [[acc1 t]|]; [|discriminate]. specialize (P acc1 t eq_refl).
    set (post := match q with inl i => match nth i raw [] with [] => (None, []) | u :: r => (Some u, r) end | inr u => (Some u, []) end) in H.
    assert (Q : parens (given (fst post) ++ snd post) = parens (match q with inl i => nth i raw [] | inr t => [t] end)).
    { unfold post. destruct q as [i|u]; [destruct (nth i raw []); reflexivity|reflexivity]. }
    assert (Q2 : fst post = None -> snd post = []) by (unfold post; destruct q as [i|u]; [destruct (nth i raw []); [reflexivity|discriminate]|discriminate]).
    destruct post as [u tail]. cbn [fst snd] in Q, Q2.
    assert (G : forall l', assemble paste raw ex (acc1 ++ paste t u ++ tail) b = Some l' -> parens l' = parens (acc ++ ((match p with Some i => nth i raw [] | None => [] end) ++ (match q with inl i => nth i raw [] | inr t => [t] end)) ++ flat_map (filled raw ex) b)).
    { intros l' A. rewrite (IH _ _ A). rewrite !parens_app in *. rewrite PASTE, !parens_app. rewrite <- !app_assoc. rewrite <- Q. rewrite <- !app_assoc. rewrite !app_assoc. rewrite P. rewrite <- !app_assoc. reflexivity. }
    destruct t as [t|]; [|exact (G _ H)]. destruct t; try (exact (G _ H)). destruct u as [u|]; [exact (G _ H)|].
    rewrite (Q2 eq_refl) in Q. rewrite (IH _ _ H). rewrite !parens_app in *. rewrite <- Q. rewrite <- !app_assoc. rewrite (app_assoc (parens acc)), <- P. cbn [given app parens filter]. rewrite <- !app_assoc. reflexivity.
Qed.
Lemma filled_closed : forall raw ex b x, Forall closed raw -> Forall closed ex -> closed (x ++ written b) -> closed (x ++ flat_map (filled raw ex) b).
Proof.
  intros raw ex b x R E. assert (N : forall ls i, Forall closed ls -> closed (nth i ls [])).
  { intros ls i F. destruct (nth_in_or_default i ls []) as [H|H]; [rewrite Forall_forall in F; exact (F _ H)|rewrite H; apply closed_nil]. }
  revert x. induction b as [|r b IH]; intros x C; [exact C|]. cbn [flat_map]. rewrite app_assoc. apply IH. rewrite <- app_assoc. unfold written in *. cbn [flat_map] in C. destruct r as [l|i|i|p q]; cbn [filled app] in *.
  - exact C.
  - apply closed_insert; [exact C|]. apply N. exact E.
  - exact C.
  - rewrite <- app_assoc. destruct q as [i|t]; destruct p as [j|]; cbn [app] in *.
    + apply closed_insert; [|apply N; exact R]. apply closed_insert; [exact C|apply N; exact R].
    + apply closed_insert; [exact C|apply N; exact R].
    + apply closed_insert; [exact C|apply N; exact R].
    + exact C.
Qed.
Lemma assemble_closed : forall raw ex b l, assemble paste raw ex [] b = Some l -> Forall closed raw -> Forall closed ex -> closed (written b) -> closed l.
Proof.
  intros raw ex b l H R E C. apply closed_parens. rewrite (assemble_parens _ _ _ _ _ H). apply closed_parens. apply filled_closed; assumption.
Qed.
End Assemble.

(** ** An order on stacks *)
Inductive lex : list nat -> list nat -> Prop :=
  | lex_lt a b x y : (a < b)%nat -> length x = length y -> lex (a :: x) (b :: y)
  | lex_eq a x y : lex x y -> lex (a :: x) (a :: y).
Lemma lex_length : forall u v, lex u v -> length u = length v.
Proof. intros u v H. induction H; cbn [length]; congruence. Qed.
Lemma lex_trans : forall u v w, lex u v -> lex v w -> lex u w.
Proof.
  intros u v w H. revert w. induction H as [a b x y L E|a x y H IH]; intros w K; inversion K; subst.
  - constructor; [lia|congruence].
  - constructor; [lia|]. rewrite E. apply lex_length. assumption.
  - constructor; [assumption|]. rewrite (lex_length _ _ H). assumption.
  - apply lex_eq. apply IH. assumption.
Qed.
Lemma lex_wf : forall u, Acc lex u.
Proof.
  assert (W : forall k u, length u = k -> Acc lex u); [|intro u; exact (W _ u eq_refl)]. induction k as [|k IH]; intros u L.
  - destruct u; [|discriminate]. constructor. intros v V. inversion V.
  - destruct u as [|a x]; [discriminate|]. cbn [length] in L. injection L as L. revert x L. induction a as [a IHa] using (well_founded_induction lt_wf). intros x L.
    pose proof (IH x L) as A. revert L. induction A as [x A IHx]. intro L. constructor. intros w W. inversion W as [c b y z LT E|c y z LX]; subst.
    + apply IHa; [exact LT|congruence].
    + apply IHx; [exact LX|]. rewrite (lex_length _ _ LX). reflexivity.
Qed.
Definition lexle (u v : list nat) : Prop := u = v \/ lex u v.
Lemma lexle_trans : forall u v w, lexle u v -> lexle v w -> lexle u w.
Proof. intros u v w [->|A] [->|B]; unfold lexle; auto. right. exact (lex_trans _ _ _ A B). Qed.
Lemma lex_lexle : forall u v w, lex u v -> lexle v w -> lex u w.
Proof. intros u v w A [<-|B]; [exact A|exact (lex_trans _ _ _ A B)]. Qed.
Lemma lexle_lex : forall u v w, lexle u v -> lex v w -> lex u w.
Proof. intros u v w [->|A] B; [exact B|exact (lex_trans _ _ _ A B)]. Qed.
Lemma lex_prefix : forall p x y, lex x y -> lex (p ++ x) (p ++ y).
Proof. induction p as [|a p IH]; intros x y H; [exact H|]. cbn [app]. apply lex_eq, IH, H. Qed.
Lemma lexle_prefix : forall p x y, lexle x y -> lexle (p ++ x) (p ++ y).
Proof. intros p x y [->|H]; [left; reflexivity|right; apply lex_prefix; exact H]. Qed.
Lemma zeros_le : forall y k, length y = k -> lexle (repeat 0%nat k) y.
Proof.
  induction y as [|b y IH]; intros k E; subst k; [left; reflexivity|]. cbn [length repeat]. destruct b as [|b].
  - destruct (IH _ eq_refl) as [H|H]; [left; rewrite H; reflexivity|right; apply lex_eq; exact H].
  - right. constructor; [lia|]. apply repeat_length.
Qed.
Lemma lex_zeros : forall p a b x y, (a < b)%nat -> length x = length y -> lex (repeat 0%nat (length p) ++ a :: x) (p ++ b :: y).
Proof.
  induction p as [|c p IH]; intros a b x y L E; [constructor; assumption|]. cbn [length repeat app]. destruct c as [|c]; [apply lex_eq, IH; assumption|]. constructor; [lia|]. rewrite !app_length, repeat_length. cbn [length]. congruence.
Qed.

(** The sizes of the nodes from the bottom, one place for each macro that is active. *)
Fixpoint levels (ns : list node) : list nat :=
  match ns with [] => [0%nat] | n :: ns1 => match name n with Some _ => levels ns1 ++ [S (length (rest n))] | None => [S (length (rest n))] end end.
Definition shape (ns : list node) : Prop := forall up n ns1, ns = up ++ n :: ns1 -> name n = None -> ns1 = [].
Lemma shape_tl : forall n ns, shape (n :: ns) -> shape ns.
Proof. intros n ns H up m ns1 E. apply (H (n :: up) m ns1). rewrite E. reflexivity. Qed.
Lemma levels_length : forall ns, shape ns -> length (levels ns) = S (length (names_of ns)).
Proof.
  induction ns as [|n ns IH]; intro H; [reflexivity|]. rewrite names_cons. cbn [levels]. destruct (name n) eqn:E.
  - rewrite app_length, (IH (shape_tl _ _ H)). cbn [length]. lia.
  - rewrite (H [] n ns eq_refl E). reflexivity.
Qed.
Definition pre (nm : option nat) (ns : list node) : list nat := match nm with Some _ => levels ns | None => [] end.
Lemma levels_cons : forall n ns, levels (n :: ns) = pre (name n) ns ++ [S (length (rest n))].
Proof. intros n ns. cbn [levels]. unfold pre. destruct (name n); reflexivity. Qed.
Lemma levels_up : forall up n ns, shape (up ++ n :: ns) -> exists x, levels (up ++ n :: ns) = pre (name n) ns ++ S (length (rest n)) :: x.
Proof.
  induction up as [|m up IH]; intros n ns H; [exists []; apply levels_cons|]. cbn [app levels]. destruct (name m) as [k|] eqn:E.
  - destruct (IH n ns (shape_tl _ _ H)) as [x X]. rewrite X. exists (x ++ [S (length (rest m))]). rewrite <- app_assoc. reflexivity.
  - exfalso. pose proof (H [] m (up ++ n :: ns) eq_refl E) as Q. destruct up; discriminate.
Qed.

Section Key.
Variable K : nat.
Definition pad (l : list nat) : list nat := l ++ repeat 0%nat (K - length l).
Definition key (s : state) : list nat := pad (repeat 0%nat (length (below s)) ++ levels (stack s)).
Definition small (s : state) : Prop := (length (below s) + length (levels (stack s)) <= K)%nat.
Lemma pad_length : forall l, (length l <= K)%nat -> length (pad l) = K.
Proof. intros l H. unfold pad. rewrite app_length, repeat_length. lia. Qed.
Lemma key_form : forall s p a x, levels (stack s) = p ++ a :: x -> key s = (repeat 0%nat (length (below s)) ++ p) ++ a :: (x ++ repeat 0%nat (K - (length (below s) + length (levels (stack s))))).
Proof. intros s p a x E. unfold key, pad. rewrite app_length, repeat_length, E, <- !app_assoc. reflexivity. Qed.
Lemma key_lt : forall s s1 p a b x y, small s -> small s1 -> below s1 = below s -> levels (stack s1) = p ++ a :: x -> levels (stack s) = p ++ b :: y -> (a < b)%nat -> lex (key s1) (key s).
Proof.
  intros s s1 p a b x y S0 S1 B E1 E L. rewrite (key_form s1 p a x E1), (key_form s p b y E), B. apply lex_prefix. constructor; [exact L|]. unfold small in *. rewrite E in *. rewrite E1, B in *.
  rewrite !app_length, !repeat_length in *. cbn [length] in *. lia.
Qed.
Lemma key_le : forall s s1 p a b x, small s -> small s1 -> below s1 = below s -> levels (stack s1) = p ++ [a] -> levels (stack s) = p ++ b :: x -> (a <= b)%nat -> lexle (key s1) (key s).
Proof.
  intros s s1 p a b x S0 S1 B E1 E L. destruct (Nat.eq_dec a b) as [->|N]; [|right; apply (key_lt s s1 p a b [] x); try assumption; lia].
  rewrite (key_form s1 p b [] E1), (key_form s p b x E), B. apply lexle_prefix. cbn [app]. unfold small in *. rewrite E in *. rewrite E1, B in *. rewrite !app_length in *. cbn [length] in *.
  apply (lexle_prefix [b]). apply zeros_le. rewrite app_length, repeat_length. lia.
Qed.
Lemma key_empty : forall s s1, small s -> below s1 = below s -> stack s1 = [] -> lexle (key s1) (key s).
Proof.
  intros s s1 S B E. assert (Z : key s1 = repeat 0%nat (length (pad (repeat 0%nat (length (below s)) ++ levels (stack s))))).
  { rewrite pad_length by (rewrite app_length, repeat_length; exact S). unfold key, pad. rewrite E, B, !app_length, repeat_length. cbn [levels length]. change ([0%nat]) with (repeat 0%nat 1). rewrite <- !repeat_app. f_equal. unfold small in S. destruct (levels (stack s)) eqn:Q; cbn [length] in *; [|lia].
    destruct (stack s) as [|n ns]; [discriminate Q|]. cbn [levels] in Q. destruct (name n); [apply app_eq_nil in Q; destruct Q; discriminate|discriminate]. }
  rewrite Z. apply zeros_le. reflexivity.
Qed.
End Key.

(** ** Reading tokens *)
Definition word (ns : list node) : list tok := concat (map rest ns).
(** [w] was read and [ns1] is left of [ns]. *)
Definition moved (ns : list node) (w : list tok) (ns1 : list node) : Prop :=
  (ns1 = [] /\ w = word ns) \/ exists dead n v l ns0, ns = dead ++ n :: ns0 /\ rest n = v ++ l /\ ns1 = {| rest := l; name := name n |} :: ns0 /\ w = word dead ++ v.
Lemma moved_word : forall ns w ns1, moved ns w ns1 -> word ns = w ++ word ns1.
Proof.
  intros ns w ns1 [[-> ->]|(dead & n & v & l & ns0 & -> & R & -> & ->)]; [cbn; rewrite app_nil_r; reflexivity|]. unfold word. rewrite map_app, concat_app. cbn [map concat rest]. rewrite R, <- !app_assoc. reflexivity.
Qed.
Lemma moved_refl : forall ns, moved ns [] ns.
Proof. intros [|n ns]; [left; split; reflexivity|]. right. exists [], n, [], (rest n), ns. repeat split; try reflexivity. destruct n; reflexivity. Qed.
Lemma moved_pop : forall n ns w ns1, moved ns w ns1 -> moved (n :: ns) (rest n ++ w) ns1.
Proof.
  intros n ns w ns1 [[-> ->]|(dead & m & v & l & ns0 & -> & R & -> & ->)]; [left; split; reflexivity|]. right. exists (n :: dead), m, v, l, ns0. split; [reflexivity|]. split; [exact R|]. split; [reflexivity|]. unfold word. cbn [map concat]. rewrite app_assoc. reflexivity.
Qed.
Lemma moved_here : forall n v l ns, rest n = v ++ l -> moved (n :: ns) v ({| rest := l; name := name n |} :: ns).
Proof. intros n v l ns R. right. exists [], n, v, l, ns. repeat split; try reflexivity. exact R. Qed.
Lemma moved_shape : forall ns w ns1, moved ns w ns1 -> shape ns -> shape ns1.
Proof.
  intros ns w ns1 [[-> _]|(dead & n & v & l & ns0 & -> & R & -> & _)] H up m ns2 E N; [destruct up; discriminate|].
  destruct up as [|u up].
  - injection E as <- <-. apply (H dead n ns0 eq_refl). exact N.
  - injection E as _ E. apply (H (dead ++ n :: up) m ns2); [rewrite E, <- app_assoc; reflexivity|exact N].
Qed.
Definition closes (nested : bool) (ns : list node) : Prop := forall up n ns1, ns = up ++ n :: ns1 -> closed (rest n) \/ (nested = false /\ name n = None).
Lemma moved_closes : forall nested ns w ns1, moved ns w ns1 -> closes nested ns -> closes nested ns1.
Proof.
  intros nested ns w ns1 [[-> _]|(dead & n & v & l & ns0 & -> & R & -> & _)] H up m ns2 E; [destruct up; discriminate|].
  destruct up as [|u up].
  - injection E as <- <-. cbn [rest name]. destruct (H dead n ns0 eq_refl) as [C|C]; [left; rewrite R in C; exact (closed_suffix _ _ C)|right; exact C].
  - injection E as _ E. apply (H (dead ++ n :: up) m ns2). rewrite E, <- app_assoc. reflexivity.
Qed.
Lemma moved_key : forall K s s1 w, small K s -> small K s1 -> below s1 = below s -> shape (stack s) -> moved (stack s) w (stack s1) -> lexle (key K s1) (key K s).
Proof.
  intros K s s1 w S0 S1 B H [[E _]|(dead & n & v & l & ns0 & E & R & E1 & _)]; [apply key_empty; assumption|].
  destruct (levels_up dead n ns0) as [x X]; [rewrite <- E; exact H|]. apply (key_le K s s1 (pre (name n) ns0) (S (length l)) (S (length (rest n))) x); try assumption; [rewrite E1; apply levels_cons|rewrite E; exact X|]. rewrite R, app_length. lia.
Qed.

Lemma settle_moved : forall ns d, exists w, w = [] /\ moved ns w (fst (settle ns d)).
Proof.
  induction ns as [|n ns IH]; intro d; cbn [settle]; [exists []; split; [reflexivity|apply moved_refl]|]. destruct (rest n) as [|t l] eqn:R; [|exists []; split; [reflexivity|apply moved_refl]].
  destruct (IH (reenable n d)) as (w & -> & M). exists []. split; [reflexivity|]. pose proof (moved_pop n _ _ _ M) as Q. rewrite R in Q. exact Q.
Qed.
Lemma current_moved : forall s, moved (stack s) [] (stack (snd (current s))).
Proof. intro s. unfold current. destruct (settle_moved (stack s) (disabled s)) as (w & -> & M). destruct (settle (stack s) (disabled s)) as [ns d]. exact M. Qed.
Lemma settle_head : forall ns d n ns1 d1, settle ns d = (n :: ns1, d1) -> rest n <> [].
Proof. induction ns as [|m ns IH]; intros d n ns1 d1 H; cbn [settle] in H; [discriminate|]. destruct (rest m) eqn:R; [exact (IH _ _ _ _ H)|]. injection H as <- <- <-. rewrite R. discriminate. Qed.
Lemma current_head : forall s t s1, current s = (t, s1) -> match t with None => stack s1 = [] | Some t => exists n l ns, stack s1 = n :: ns /\ rest n = t :: l end.
Proof.
  intros s t s1 H. unfold current in H. destruct (settle (stack s) (disabled s)) as [ns d] eqn:E. injection H as <- <-. destruct ns as [|n ns]; [reflexivity|]. apply settle_head in E. destruct (rest n) as [|t l] eqn:R; [congruence|]. cbn [hd_error]. exists n, l, ns. split; [reflexivity|exact R].
Qed.
Lemma next_head : forall s t s1, next s = (Some t, s1) -> exists n l ns, stack (snd (current s)) = n :: ns /\ rest n = t :: l /\ stack s1 = {| rest := l; name := name n |} :: ns.
Proof.
  intros s t s1 H. unfold next in H. destruct (current s) as [u s0] eqn:C. pose proof (current_head s u s0 C) as Q. cbn [snd]. destruct u as [u|].
  - destruct Q as (n & l & ns & E & R). rewrite E in H. injection H as <- <-. exists n, l, ns. cbn [stack set_stack]. rewrite R. auto.
  - rewrite Q in H. discriminate H.
Qed.
Lemma next_moved : forall s t s1, next s = (Some t, s1) -> moved (stack s) [t] (stack s1).
Proof.
  intros s t s1 H. destruct (next_head s t s1 H) as (n & l & ns & E & R & E1). pose proof (current_moved s) as M. rewrite E in M. destruct M as [[Q _]|(dead & m & v & l0 & ns0 & E2 & R2 & E3 & W)]; [discriminate|].
  injection E3 as -> ->. cbn [rest name] in *. right. exists dead, m, (v ++ [t]), l, ns0. split; [exact E2|]. split; [rewrite R2, R, <- app_assoc; reflexivity|]. split; [exact E1|]. rewrite app_assoc, <- W. reflexivity.
Qed.
Lemma eat_moved_nodes : forall p ns d, (forall t, p t = true -> value t = 0) -> exists w, total w = 0 /\ moved ns w (fst (eat_nodes p ns d)).
Proof.
  intros p ns d P. revert d. assert (D : forall l, exists v, l = v ++ drop_while p l /\ total v = 0).
  { induction l as [|t l [v [E V]]]; [exists []; auto|]. cbn [drop_while]. destruct (p t) eqn:Q; [exists (t :: v); cbn [app total]; rewrite <- E, V, (P t Q); auto|exists []; auto]. }
  induction ns as [|n ns IH]; intro d; cbn [eat_nodes]; [exists []; split; [reflexivity|apply moved_refl]|]. destruct (D (rest n)) as [v [E V]]. destruct (drop_while p (rest n)) as [|t l] eqn:R.
  - destruct (IH (reenable n d)) as (w & W & M). exists (rest n ++ w). split; [rewrite total_app, E, app_nil_r, V, W; reflexivity|]. apply moved_pop. exact M.
  - exists v. split; [exact V|]. apply moved_here. exact E.
Qed.
Lemma eat_moved : forall p s, (forall t, p t = true -> value t = 0) -> exists w, total w = 0 /\ moved (stack s) w (stack (eat p s)).
Proof. intros p s P. destruct (eat_moved_nodes p (stack s) (disabled s) P) as (w & W & M). exists w. split; [exact W|]. unfold eat. destruct (eat_nodes p (stack s) (disabled s)) as [ns d]. exact M. Qed.
Lemma space_value : forall t, is_space t = true -> value t = 0.
Proof. intros t H. destruct t; try discriminate; reflexivity. Qed.
Lemma blank_value : forall t, is_blank t = true -> value t = 0.
Proof. intros t H. destruct t; try discriminate; reflexivity. Qed.

(** ** Reading within one node *)
Definition at_node (s : state) (nm : option nat) (ns : list node) (l : list tok) : Prop := stack s = {| rest := l; name := nm |} :: ns \/ (stack s = [] /\ ns = [] /\ nm = None /\ l = []).
Definition within (d : nat) (nm : option nat) (ns : list node) (l : list tok) : Prop := total l <= - Z.of_nat d \/ (ns = [] /\ nm = None).
Lemma current_at : forall s nm ns l, at_node s nm ns l -> within 1 nm ns l -> at_node (snd (current s)) nm ns l.
Proof.
  intros s nm ns l [E|(E & -> & -> & ->)] W; unfold current; rewrite E; [|right; cbn; auto]. cbn [settle rest]. destruct l as [|t l]; [|left; reflexivity]. destruct W as [W|[-> ->]]; [cbn in W; lia|]. right. cbn. auto.
Qed.
Lemma next_at : forall s nm ns l, at_node s nm ns l -> within 1 nm ns l ->
  (exists t l1 s1, l = t :: l1 /\ next s = (Some t, s1) /\ stack s1 = {| rest := l1; name := nm |} :: ns /\ S (size s1) = size s)
  \/ (l = [] /\ ns = [] /\ nm = None /\ exists s1, next s = (None, s1) /\ stack s1 = []).
Proof.
  intros s nm ns l [E|(E & -> & -> & ->)] W.
  - destruct l as [|t l].
    + right. destruct W as [W|[-> ->]]; [cbn in W; lia|]. split; [reflexivity|]. split; [reflexivity|]. split; [reflexivity|]. unfold next, current. rewrite E. cbn. eexists. split; reflexivity.
    + left. exists t, l. unfold next, current. rewrite E. cbn. eexists. split; [reflexivity|]. split; [reflexivity|]. split; [reflexivity|]. unfold size. rewrite E. cbn. reflexivity.
  - right. split; [reflexivity|]. split; [reflexivity|]. split; [reflexivity|]. unfold next, current. rewrite E. cbn. eexists. split; [reflexivity|]. cbn. first [exact E|reflexivity].
Qed.
Lemma eat_at : forall p s nm ns l, (forall t, p t = true -> value t = 0) -> at_node s nm ns l -> within 1 nm ns l -> exists v l1, l = v ++ l1 /\ total v = 0 /\ at_node (eat p s) nm ns l1 /\ (size (eat p s) <= size s)%nat.
Proof.
  intros p s nm ns l P A W. assert (D : forall l, exists v, l = v ++ drop_while p l /\ total v = 0).
  { clear l A W. induction l as [|t l [v [E V]]]; [exists []; auto|]. cbn [drop_while]. destruct (p t) eqn:Q; [exists (t :: v); cbn [app total]; rewrite <- E, V, (P t Q); auto|exists []; auto]. }
  destruct (D l) as [v [E V]]. exists v, (drop_while p l). split; [exact E|]. split; [exact V|]. destruct A as [A|(A & -> & -> & ->)].
  - unfold eat. rewrite A. cbn [eat_nodes rest]. destruct (drop_while p l) as [|t l1] eqn:Q.
    + rewrite app_nil_r in E. destruct W as [W|[-> ->]]; [rewrite E, V in W; lia|]. cbn. split; [right; auto|]. unfold size. cbn. lia.
    + split; [left; reflexivity|]. unfold size. cbn [set_stack stack map list_sum rest fold_right]. rewrite A. cbn [map list_sum rest fold_right]. rewrite E at 1. rewrite app_length. lia.
  - unfold eat. rewrite A. cbn. split; [right; auto|]. unfold size. cbn. rewrite A. cbn. lia.
Qed.

Lemma skip_ok : forall fuel d s nm ns l, (size s <= fuel)%nat -> (1 <= d)%nat -> at_node s nm ns l -> within d nm ns l ->
  exists b s1 v l1, skip fuel d s = Ran b s1 /\ l = v ++ l1 /\ at_node s1 nm ns l1 /\ - Z.of_nat d <= total v.
Proof.
  induction fuel as [|fuel IH]; intros d s nm ns l F D A W; [unfold size in F; lia|]. cbn [skip].
  assert (W1 : within 1 nm ns l) by (destruct W as [W|W]; [left; lia|right; exact W]).
  destruct (next_at s nm ns l A W1) as [(t & l1 & s1 & -> & -> & E & SZ)|(-> & -> & -> & s1 & -> & E)]; [|exists false, s1, [], []; split; [reflexivity|]; split; [reflexivity|]; split; [right; auto|cbn; lia]].
  assert (G : forall d1, (1 <= d1)%nat -> value t = Z.of_nat d1 - Z.of_nat d -> exists b s2 v l2, skip fuel d1 s1 = Ran b s2 /\ t :: l1 = v ++ l2 /\ at_node s2 nm ns l2 /\ - Z.of_nat d <= total v).
  { intros d1 D1 V. destruct (IH d1 s1 nm ns l1) as (b & s2 & v & l2 & R & L & A2 & T); [lia|exact D1|left; exact E|destruct W as [W|W]; [left; cbn [total] in W; lia|right; exact W]|].
    exists b, s2, (t :: v), l2. split; [exact R|]. split; [cbn; rewrite L; reflexivity|]. split; [exact A2|]. cbn [total]. lia. }
  destruct t; try (apply G; cbn [value]; lia).
  destruct d as [|[|d]]; [lia| |apply G; cbn [value]; lia]. exists true, s1, [Close], l1. split; [reflexivity|]. split; [reflexivity|]. split; [left; exact E|cbn; lia].
Qed.

Lemma open_append : forall cur blank t k k1, (forall a b, cur = a ++ b -> total b <= k) -> match blank with Some b => value b = 0 | None => True end -> 0 <= k -> k1 = k + value t -> 0 <= k1 ->
  forall a b, append cur blank t = a ++ b -> total b <= k1.
Proof.
  intros cur blank t k k1 H B K E K1 a b Q. unfold append in Q. set (m := (match blank with Some b => [b] | None => [] end) ++ [t]) in Q.
  destruct (suffix_split cur m a b Q) as [[z Z]|[z [Z1 ->]]].
  - assert (b = [] \/ total b = value t) as [->|T]; [|cbn; lia|rewrite T; unfold m in Z].
    + unfold m in Z. destruct blank as [u|]; cbn [app] in Z.
      * destruct z as [|x z]; [right; cbn [app] in Z; subst b; cbn; lia|]. injection Z as _ Z. destruct z as [|x1 z]; [right; cbn [app] in Z; subst b; cbn; lia|]. injection Z as _ Z. symmetry in Z. apply app_eq_nil in Z. left. apply Z.
      * destruct z as [|x z]; [right; cbn [app] in Z; subst b; cbn; lia|]. injection Z as _ Z. symmetry in Z. apply app_eq_nil in Z. left. apply Z.
    + destruct (Z_le_gt_dec (value t) k1); [assumption|lia].
  - rewrite total_app. specialize (H a z Z1). unfold m. destruct blank as [u|]; cbn [app total]; lia.
Qed.

Lemma collect_ok : forall fuel va left d args cur blank s nm ns l M, (size s <= fuel)%nat -> (1 <= d)%nat -> at_node s nm ns l -> within d nm ns l ->
  Forall closed args -> (forall a b, cur = a ++ b -> total b <= Z.of_nat d - 1) -> match blank with Some b => value b = 0 | None => True end ->
  Forall (fun a => (length a <= M)%nat) args -> (length cur + (match blank with Some _ => 1 | None => 0 end) <= M)%nat ->
  exists c s1 v l1, collect fuel va left d args cur blank s = Ran c s1 /\ l = v ++ l1 /\ at_node s1 nm ns l1 /\ - Z.of_nat d <= total v
    /\ match c with Arguments raw => stack s1 = {| rest := l1; name := nm |} :: ns /\ Forall closed raw /\ Forall (fun a => (length a < M + length v)%nat) raw | _ => True end.
Proof.
  induction fuel as [|fuel IH]; intros va left d args cur blank s nm ns l M F D A W CA CC CB LA LC; [unfold size in F; lia|]. cbn [collect].
  assert (W1 : within 1 nm ns l) by (destruct W as [W|W]; [left; lia|right; exact W]).
  destruct (next_at s nm ns l A W1) as [(t & l1 & s1 & -> & -> & E & SZ)|(-> & -> & -> & s1 & -> & E)]; [|exists Unclosed, s1, [], []; split; [reflexivity|]; split; [reflexivity|]; split; [right; auto|]; split; [cbn; lia|exact I]].
  assert (W2 : forall d1, value t = Z.of_nat d1 - Z.of_nat d -> within d1 nm ns l1) by (intros d1 V; destruct W as [W|W]; [left; cbn [total] in W; lia|right; exact W]).
  assert (LIFT : forall c s2 v l2 M1 d1, (M1 <= S M)%nat -> value t = Z.of_nat d1 - Z.of_nat d -> l1 = v ++ l2 -> at_node s2 nm ns l2 -> - Z.of_nat d1 <= total v ->
     match c with Arguments raw => stack s2 = {| rest := l2; name := nm |} :: ns /\ Forall closed raw /\ Forall (fun a => (length a < M1 + length v)%nat) raw | _ => True end ->
     exists c1 s3 v1 l3, Ran c s2 = Ran c1 s3 /\ t :: l1 = v1 ++ l3 /\ at_node s3 nm ns l3 /\ - Z.of_nat d <= total v1
     /\ match c1 with Arguments raw => stack s3 = {| rest := l3; name := nm |} :: ns /\ Forall closed raw /\ Forall (fun a => (length a < M + length v1)%nat) raw | _ => True end).
  { intros c s2 v l2 M1 d1 LM V L A2 T C. exists c, s2, (t :: v), l2. split; [reflexivity|]. split; [rewrite L; reflexivity|]. split; [exact A2|]. split; [cbn [total]; lia|].
    destruct c; try exact I. destruct C as (C1 & C2 & C3). split; [exact C1|]. split; [exact C2|]. revert C3. apply Forall_impl. intros a H. cbn [length]. lia. }
  assert (KEEP : forall d1, (1 <= d1)%nat -> value t = Z.of_nat d1 - Z.of_nat d ->
     exists c s2 v l2, (if is_space t then collect fuel va left d1 args cur (Some t) s1 else collect fuel va left d1 args (append cur blank t) None s1) = Ran c s2 /\ t :: l1 = v ++ l2 /\ at_node s2 nm ns l2 /\ - Z.of_nat d <= total v
     /\ match c with Arguments raw => stack s2 = {| rest := l2; name := nm |} :: ns /\ Forall closed raw /\ Forall (fun a => (length a < M + length v)%nat) raw | _ => True end).
  { intros d1 D1 V. destruct (is_space t) eqn:SP.
    - pose proof (space_value t SP) as V0. destruct (IH va left d1 args cur (Some t) s1 nm ns l1 (S M)) as (c & s2 & v & l2 & R & L & A2 & T & C);
        [lia|exact D1|left; exact E|exact (W2 _ V)|exact CA|intros a b Q; specialize (CC a b Q); lia|exact V0|revert LA; apply Forall_impl; intros; lia|destruct blank; lia|].
      rewrite R. apply (LIFT c s2 v l2 (S M) d1); auto; lia.
    - destruct (IH va left d1 args (append cur blank t) None s1 nm ns l1 (S M)) as (c & s2 & v & l2 & R & L & A2 & T & C);
        [lia|exact D1|left; exact E|exact (W2 _ V)|exact CA|apply (open_append cur blank t (Z.of_nat d - 1)); [exact CC|exact CB|lia|lia|lia]|exact I|revert LA; apply Forall_impl; intros; lia|unfold append; rewrite !app_length; destruct blank; cbn [length]; lia|].
      rewrite R. apply (LIFT c s2 v l2 (S M) d1); auto; lia. }
  destruct t; try (apply KEEP; cbn [value]; lia).
  - (* Close *) destruct d as [|[|d]]; [lia| |apply KEEP; cbn [value]; lia].
    exists (finish va left (args ++ [cur])), s1, [Close], l1. split; [reflexivity|]. split; [reflexivity|]. split; [left; exact E|]. split; [cbn; lia|].
    assert (CL : Forall closed (args ++ [cur])) by (apply Forall_app; split; [exact CA|constructor; [intros a b Q; specialize (CC a b Q); lia|constructor]]).
    assert (LL : Forall (fun a => (length a < M + length [Close])%nat) (args ++ [cur])) by (apply Forall_app; split; [revert LA; apply Forall_impl; cbn [length]; intros; lia|constructor; [cbn [length]; lia|constructor]]).
    unfold finish. destruct left as [|[|left]]; [auto| |exact I]. destruct va; [|exact I]. split; [exact E|]. split; apply Forall_app; split; try assumption; constructor; try constructor; [apply closed_nil|cbn [length]; lia].
  - (* Comma *) destruct (d =? 1)%nat eqn:D1; [|apply KEEP; cbn [value]; lia]. apply Nat.eqb_eq in D1. subst d. destruct left as [|left].
    + destruct va; [apply (KEEP 1%nat); cbn [value]; lia|]. exists Too_many, s1, [Comma], l1. split; [reflexivity|]. split; [reflexivity|]. split; [left; exact E|]. split; [cbn; lia|exact I].
    + destruct (eat_at is_space s1 nm ns l1 space_value (or_introl E) (W2 1%nat ltac:(cbn; lia))) as (v0 & l2 & L0 & V0 & A2 & SZ2).
      destruct (IH va left 1%nat (args ++ [cur]) [] None (eat is_space s1) nm ns l2 M) as (c & s2 & v & l3 & R & L & A3 & T & C);
        [lia|lia|exact A2|destruct (W2 1%nat ltac:(cbn; lia)) as [W3|W3]; [left; rewrite L0, total_app in W3; lia|right; exact W3]
        |apply Forall_app; split; [exact CA|constructor; [intros a b Q; specialize (CC a b Q); lia|constructor]]|intros a b Q; symmetry in Q; apply app_eq_nil in Q; destruct Q as [_ ->]; cbn; lia|exact I
        |apply Forall_app; split; [exact LA|constructor; [lia|constructor]]|cbn [length]; lia|].
      rewrite R. apply (LIFT c s2 (v0 ++ v) l3 M 1%nat); [lia|cbn; lia|rewrite L0, L, app_assoc; reflexivity|exact A3|rewrite total_app; lia|].
      destruct c; try exact I. destruct C as (C1 & C2 & C3). split; [exact C1|]. split; [exact C2|]. revert C3. apply Forall_impl. intros a H. rewrite app_length. lia.
Qed.

(** ** Every run comes to an end *)
Definition drops (w w1 : list tok) : Prop := forall x, closed (x ++ w) -> closed (x ++ w1).
Lemma drops_trans : forall a b c, drops a b -> drops b c -> drops a c.
Proof. intros a b c H K x C. apply K, H, C. Qed.
Lemma drops_refl : forall a, drops a a.
Proof. intros a x C. exact C. Qed.
Lemma drops_front : forall v w, 0 <= total v -> drops (v ++ w) w.
Proof. intros v w H x C. exact (closed_drop x v w C H). Qed.
Lemma drops_cons : forall t u a b, value u = value t -> drops a b -> drops (t :: a) (u :: b).
Proof. intros t u a b V H x C. apply (closed_swap x t u a) in C; [|exact V]. change (u :: a) with ([u] ++ a) in C. rewrite app_assoc in C. apply H in C. rewrite <- app_assoc in C. exact C. Qed.
Lemma drops_insert : forall l w, closed l -> drops w (l ++ w).
Proof. intros l w H x C. exact (closed_insert x l w C H). Qed.

Section Ends.
Variable paste : option tok -> option tok -> list tok.
Variable table : nat -> option macro.
Variable U : list nat.
Hypothesis PASTE : keeps_parens paste.
Hypothesis TABLE : forall n m, table n = Some m -> In n U.
Hypothesis BODIES : forall n m, table n = Some m -> closed (written (body m)).
Notation K := (S (length U)).
Notation key := (key K).
Notation scan := (scan paste table).
Notation expand := (expand paste).
Notation replace := (replace paste).

Definition fit (nested : bool) (s : state) : Prop := inv s /\ proper (log s) /\ incl (active s) U /\ shape (stack s) /\ closes nested (stack s).
Lemma fit_small : forall nested s, fit nested s -> small K s.
Proof.
  intros nested s ((N & _) & _ & I & S0 & _). unfold small. rewrite (levels_length _ S0). pose proof (NoDup_incl_length N I) as L. unfold active in L. rewrite app_length in L. lia.
Qed.
Lemma fit_moved : forall nested s s1 w, fit nested s -> shrinks s s1 -> moved (stack s) w (stack s1) -> fit nested s1 /\ lexle (key s1) (key s) /\ below s1 = below s.
Proof.
  intros nested s s1 w F H M. pose proof F as (I & P & A & S0 & C). destruct H as (B & L & I1 & D & A1).
  assert (F1 : fit nested s1).
  { split; [exact (I1 I)|]. split; [rewrite L; exact P|]. split; [eapply incl_tran; eassumption|]. split; [exact (moved_shape _ _ _ M S0)|exact (moved_closes _ _ _ _ M C)]. }
  split; [exact F1|]. split; [|exact B]. apply (moved_key K s s1 w); try assumption; [exact (fit_small _ _ F)|exact (fit_small _ _ F1)].
Qed.
Lemma at_moved : forall s s1 nm ns l v l1, stack s = {| rest := l; name := nm |} :: ns -> l = v ++ l1 -> at_node s1 nm ns l1 -> moved (stack s) v (stack s1).
Proof.
  intros s s1 nm ns l v l1 E L [A|(A & -> & -> & ->)].
  - rewrite E, A. apply (moved_here {| rest := l; name := nm |}). exact L.
  - left. split; [exact A|]. rewrite E. unfold word. cbn [map concat rest]. rewrite L, !app_nil_r. reflexivity.
Qed.

(** After the arguments: the node the name stood in is shorter. *)
Lemma push_key : forall sb s1 s2 nb ns l n, small K sb -> small K s2 -> shape (stack s2) -> below s2 = below sb -> stack sb = nb :: ns -> at_node s1 (name nb) ns l -> (length l < length (rest nb))%nat ->
  (stack s2 = stack s1 \/ exists k, stack s2 = {| rest := k; name := Some n |} :: stack s1) -> lex (key s2) (key sb).
Proof.
  intros sb s1 s2 nb ns l n SB S2 SH B E A L P. destruct A as [A|(A & -> & N & ->)].
  - assert (X : exists x, levels (stack s2) = pre (name nb) ns ++ S (length l) :: x).
    { destruct P as [P|[k P]]; rewrite P, A in *; [exists []; apply levels_cons|]. apply (levels_up [{| rest := k; name := Some n |}] {| rest := l; name := name nb |} ns). exact SH. }
    destruct X as [x X]. apply (key_lt K sb s2 (pre (name nb) ns) (S (length l)) (S (length (rest nb))) x []); try assumption; [rewrite E; apply levels_cons|lia].
  - assert (X : exists x, levels (stack s2) = 0%nat :: x) by (destruct P as [P|[k P]]; rewrite P, A; cbn; eexists; reflexivity). destruct X as [x X].
    apply (key_lt K sb s2 [] 0%nat (S (length (rest nb))) x []); try assumption; [rewrite E, levels_cons, N; reflexivity|lia].
Qed.

(** A run over an argument comes before the run that collected it. *)
Lemma isolate_fit : forall nested s a, fit nested s -> closed a -> fit true (isolate a s).
Proof.
  intros nested s a (I & P & A & _ & _) C. split; [exact I|]. split; [exact P|]. split; [exact A|]. split.
  - intros up n ns E _. destruct up as [|x up]; [injection E as _ E; symmetry; exact E|]. injection E as _ E. destruct up; discriminate.
  - intros up n ns E. left. destruct up as [|x up]; [injection E as <- _; exact C|]. injection E as _ E. destruct up; discriminate.
Qed.
Lemma isolate_key : forall nested sb s nb ns l a, small K sb -> fit nested s -> below s = below sb -> stack sb = nb :: ns -> stack s = {| rest := l; name := name nb |} :: ns -> (length a < length (rest nb))%nat -> closed a ->
  lex (key (isolate a s)) (key sb).
Proof.
  intros nested sb s nb ns l a SB F B E E1 L C. pose proof (fit_small _ _ (isolate_fit _ _ a F C)) as SI. assert (H : length (active s) = length (repeat 0%nat (length (below sb)) ++ pre (name nb) ns)).
  { rewrite app_length, repeat_length. unfold active. rewrite app_length, B, E1, names_cons. cbn [name]. destruct F as (_ & _ & _ & SH & _). rewrite E1 in SH. unfold pre. destruct (name nb) eqn:Q.
    - rewrite (levels_length ns (shape_tl _ _ SH)). cbn [length]. lia.
    - rewrite (SH [] _ ns eq_refl eq_refl). cbn. lia. }
  rewrite (key_form K (isolate a s) [] (S (length a)) [] eq_refl), (key_form K sb (pre (name nb) ns) (S (length (rest nb))) []) by (rewrite E; apply levels_cons).
  rewrite app_nil_r. cbn [below isolate]. rewrite H. apply lex_zeros; [lia|]. cbn [app]. rewrite !repeat_length. rewrite <- H. cbn [stack isolate levels name rest length]. rewrite E, levels_cons, app_length. rewrite app_length, repeat_length in H. cbn [length]. rewrite H. lia.
Qed.

Definition ends (nested : bool) (s : state) : Prop := exists f r, (forall f1, (f <= f1)%nat -> scan f1 nested s = r) /\ match r with More _ => False | Assert _ => True | Ran out _ => drops (word (stack s)) out end.

Lemma scan_arg_kept : forall fuel a s, inv s -> proper (log s) -> kept s (isolated (scan fuel true) a s) /\ forall out s1, isolated (scan fuel true) a s = Ran out s1 -> stack s1 = stack s.
Proof. intros fuel a s I P. apply isolated_kept; [intros; apply scan_kept; assumption|intros s0 out s1 H; exact (scan_empty _ _ _ _ _ _ _ H)|exact I|exact P]. Qed.

Lemma restore_fit : forall nested s s1, fit nested s -> stack s1 = stack s -> below s1 = below s -> inv s1 -> proper (log s1) -> fit nested s1.
Proof.
  intros nested s s1 (_ & _ & A & SH & C) E B I P. split; [exact I|]. split; [exact P|]. split; [unfold active in *; rewrite E, B; exact A|]. rewrite E. split; assumption.
Qed.

Lemma args_end : forall nested sb nb ns l b, small K sb -> stack sb = nb :: ns -> (forall s, fit true s -> lex (key s) (key sb) -> ends true s) ->
  forall raw i s, fit nested s -> below s = below sb -> stack s = {| rest := l; name := name nb |} :: ns -> Forall closed raw -> Forall (fun a => (length a < length (rest nb))%nat) raw ->
  exists f r, (forall f1, (f <= f1)%nat -> expand_args (isolated (scan f1 true)) b i raw s = r)
    /\ match r with More _ => False | Assert _ => True | Ran outs s1 => Forall closed outs /\ fit nested s1 /\ stack s1 = stack s /\ below s1 = below s end.
Proof.
  intros nested sb nb ns l b SB E IH. induction raw as [|a raw IHr]; intros i s F B E1 C L; cbn [expand_args].
  - exists 0%nat, (Ran [] s). split; [reflexivity|]. split; [constructor|]. auto.
  - inversion C as [|? ? C1 C2]; subst. inversion L as [|? ? L1 L2]; subst.
    assert (X : exists f r, (forall f1, (f <= f1)%nat -> (if uses i b then match a with [] => Ran [] s | _ :: _ => isolated (scan f1 true) a s end else Ran [] s) = r)
       /\ match r with More _ => False | Assert _ => True | Ran out s1 => closed out /\ fit nested s1 /\ stack s1 = stack s /\ below s1 = below s end).
    { assert (Z : exists f r, (forall f1, (f <= f1)%nat -> Ran [] s = r) /\ match r with More _ => False | Assert _ => True | Ran out s1 => closed out /\ fit nested s1 /\ stack s1 = stack s /\ below s1 = below s end)
        by (exists 0%nat, (Ran [] s); split; [reflexivity|]; split; [apply closed_nil|]; auto).
      destruct (uses i b); [|exact Z]. assert (AN : a = [] \/ a <> []) by (destruct a; [left; reflexivity|right; discriminate]). destruct AN as [->|AN]; [exact Z|]. clear Z.
      destruct (IH (isolate a s)) as (f & r & R & P); [exact (isolate_fit _ _ _ F C1)|exact (isolate_key nested sb s nb ns l a SB F B E E1 L1 C1)|].
      exists f, (isolated (fun _ => r) a s). split; [intros f1 Hf; destruct a; [congruence|]; unfold isolated; rewrite (R f1 Hf); reflexivity|].
      pose proof (scan_arg_kept f a s (proj1 F) (proj1 (proj2 F))) as (KP & KS). unfold isolated in *. rewrite (R f (Nat.le_refl f)) in *. destruct r as [out s1|s1|s1]; [|exact I|contradiction].
      destruct KP as (I1 & P1 & B1). split; [|split; [|split]].
      - specialize (P []). apply P. cbn. rewrite app_nil_r. exact C1.
      - apply (restore_fit nested s); [exact F|reflexivity|reflexivity|exact I1|exact P1].
      - reflexivity.
      - reflexivity. }
    destruct X as (f & r & R & P). destruct r as [out s1|s1|s1]; [|exists f, (Assert s1); split; [intros f1 Hf; rewrite (R f1 Hf); reflexivity|exact I]|contradiction].
    destruct P as (P1 & P2 & P3 & P4). destruct (IHr (S i) s1 P2) as (f2 & r2 & R2 & Q2); [congruence|congruence|assumption|assumption|].
    exists (Nat.max f f2), (bind r2 (fun outs s2 => Ran (out :: outs) s2)). split; [intros f1 Hf; rewrite (R f1) by lia; cbn [bind]; rewrite (R2 f1) by lia; reflexivity|].
    destruct r2 as [outs s2|s2|s2]; cbn [bind]; [|exact I|exact Q2]. destruct Q2 as (Q1 & Q2 & Q3 & Q4). split; [constructor; assumption|]. split; [exact Q2|]. split; congruence.
Qed.

Lemma replace_ends : forall nested n m raw ex s, table n = Some m -> fit nested s -> ~ In n (disabled s) -> Forall closed raw -> Forall closed ex ->
  match replace n m raw ex s with
  | More _ => False | Assert _ => True
  | Ran t s1 => t = None /\ fit nested s1 /\ below s1 = below s /\ drops (word (stack s)) (word (stack s1)) /\ (stack s1 = stack s \/ exists k, stack s1 = {| rest := k; name := Some n |} :: stack s)
  end.
Proof.
  intros nested n m raw ex s T F D CR CE. pose proof (replace_kept paste table n m raw ex s (proj1 F) (proj1 (proj2 F)) D) as KP. pose proof (BODIES n m T) as CB. destruct F as (_ & _ & A & SH & CL). unfold MacroModel.replace in *.
  destruct (body m) as [|r b].
  - cbn [kept] in KP. destruct KP as (I1 & P1 & B1). split; [reflexivity|]. split; [|split; [reflexivity|split; [apply drops_refl|left; reflexivity]]]. split; [exact I1|]. split; [exact P1|]. split; [exact A|]. split; assumption.
  - destruct (assemble paste raw ex [] (r :: b)) as [l|] eqn:E; [|exact I]. cbn [kept] in KP. destruct KP as (I1 & P1 & B1). pose proof (assemble_closed paste PASTE raw ex (r :: b) l E CR CE CB) as C.
    split; [reflexivity|]. split; [|split; [reflexivity|split; [apply drops_insert; exact C|right; exists l; reflexivity]]]. split; [exact I1|]. split; [exact P1|]. split; [|split].
    + unfold active. cbn [stack below set_stack]. rewrite names_cons. cbn [name app]. intros x [<-|H]; [exact (TABLE n m T)|exact (A x H)].
    + intros up x ns Q N. cbn [stack set_stack] in Q. destruct up as [|y up]; [injection Q as <- _; discriminate N|]. injection Q as _ Q. exact (SH up x ns Q N).
    + intros up x ns Q. cbn [stack set_stack] in Q. destruct up as [|y up]; [injection Q as <- _; left; exact C|]. injection Q as _ Q. exact (CL up x ns Q).
Qed.

Lemma expand_ends : forall nested n m s sb nb ns lb, table n = Some m -> fit nested s -> ~ In n (disabled s) -> small K sb -> below s = below sb -> stack sb = nb :: ns -> stack s = {| rest := lb; name := name nb |} :: ns -> (length lb <= length (rest nb))%nat ->
  (if function_like m then exists l, lb = Open :: l else (length lb < length (rest nb))%nat) -> (forall s1, fit true s1 -> lex (key s1) (key sb) -> ends true s1) ->
  exists f r, (forall f1, (f <= f1)%nat -> expand (isolated (scan f1 true)) n m s = r)
   /\ match r with More _ => False | Assert _ => True | Ran t s1 => fit nested s1 /\ lex (key s1) (key sb) /\ drops (word (stack s)) (given t ++ word (stack s1)) /\ match t with Some t => t = Name n | None => True end end.
Proof.
  intros nested n m s sb nb ns lb T F D SB B E E1 L FL IH.
  assert (REP : forall s1 l raw ex, fit nested s1 -> below s1 = below s -> at_node s1 (name nb) ns l -> (length l < length (rest nb))%nat -> drops (word (stack s)) (word (stack s1)) -> ~ In n (disabled s1) -> Forall closed raw -> Forall closed ex ->
     match replace n m raw ex s1 with More _ => False | Assert _ => True | Ran t s2 => fit nested s2 /\ lex (key s2) (key sb) /\ drops (word (stack s)) (given t ++ word (stack s2)) /\ match t with Some t => t = Name n | None => True end end).
  { intros s1 l raw ex F1 B1 A1 L1 D1 N1 CR CE. pose proof (replace_ends nested n m raw ex s1 T F1 N1 CR CE) as R. destruct (replace n m raw ex s1) as [t s2|s2|s2]; [|exact I|exact R]. destruct R as (-> & F2 & B2 & D2 & P2). split; [exact F2|]. split; [|split; [|exact I]].
    - apply (push_key sb s1 s2 nb ns l n); try assumption; [exact (fit_small _ _ F2)|apply F2|congruence].
    - cbn [given app]. exact (drops_trans _ _ _ D1 D2). }
  unfold MacroModel.expand. destruct (function_like m).
  2:{ exists 0%nat, (replace n m [] [] s). split; [reflexivity|]. apply (REP s lb); try assumption; try reflexivity; try constructor. exact E1. apply drops_refl. }
  destruct FL as [l ->]. assert (N : next s = (Some Open, snd (next s)) /\ stack (snd (next s)) = {| rest := l; name := name nb |} :: ns).
  { unfold next, current. rewrite E1. cbn. split; reflexivity. }
  destruct N as [_ E2]. set (s1 := snd (next s)) in *. assert (SH1 : shrinks s s1) by apply next_shrinks.
  assert (W : within 1 (name nb) ns l).
  { destruct F as (_ & _ & _ & SH & CL). rewrite E1 in *. destruct (CL [] _ ns eq_refl) as [C|[_ C]]; [left; apply closed_total in C; cbn [total value rest] in C; lia|right]. split; [exact (SH [] _ ns eq_refl C)|exact C]. }
  assert (ALL : forall s2 v l2, shrinks s1 s2 -> l = v ++ l2 -> at_node s2 (name nb) ns l2 -> -1 <= total v -> fit nested s2 /\ below s2 = below s /\ (length l2 < length (rest nb))%nat /\ drops (word (stack s)) (word (stack s2)) /\ ~ In n (disabled s2)).
  { intros s2 v l2 H Q A V. assert (M : moved (stack s) (Open :: v) (stack s2)) by (apply (at_moved s s2 (name nb) ns (Open :: l) (Open :: v) l2); [exact E1|rewrite Q; reflexivity|exact A]).
    pose proof (shrinks_trans _ _ _ SH1 H) as SH2. destruct (fit_moved nested s s2 _ F SH2 M) as (F2 & _ & B2). split; [exact F2|]. split; [exact B2|]. split; [cbn [length] in L; rewrite Q, app_length in L; lia|]. split.
    - rewrite (moved_word _ _ _ M). apply drops_front. cbn [total value]. lia.
    - intro X. apply D. destruct SH2 as (_ & _ & _ & DI & _). exact (DI _ X). }
  destruct (params m =? 0)%nat.
  - destruct (eat_at is_blank s1 (name nb) ns l blank_value (or_introl E2) W) as (v & l2 & Q & V & A2 & _). set (s2 := eat is_blank s1) in *.
    assert (W2 : within 1 (name nb) ns l2) by (destruct W as [W|W]; [left; rewrite Q, total_app in W; lia|right; exact W]).
    pose proof (current_at s2 (name nb) ns l2 A2 W2) as A3. assert (SH2 : shrinks s1 s2) by apply eat_shrinks. pose proof (current_shrinks s2) as SH3. destruct (current s2) as [t s3] eqn:CU. cbn [snd] in *.
    pose proof (shrinks_trans _ _ _ SH2 SH3) as SH4.
    assert (ERR : match replace n m [] [] (fail s3) with More _ => False | Assert _ => True | Ran t s2 => fit nested s2 /\ lex (key s2) (key sb) /\ drops (word (stack s)) (given t ++ word (stack s2)) /\ match t with Some t => t = Name n | None => True end end).
    { destruct (ALL (fail s3) v l2) as (F3 & B3 & L3 & D3 & N3); [exact (shrinks_trans _ _ _ SH4 (shrinks_fail _))|exact Q|exact A3|lia|]. apply (REP (fail s3) l2); try assumption; constructor. }
    destruct t as [t|]; [|exists 0%nat, (replace n m [] [] (fail s3)); split; [reflexivity|exact ERR]].
    destruct t; try (exists 0%nat, (replace n m [] [] (fail s3)); split; [reflexivity|exact ERR]). clear ERR.
    exists 0%nat, (replace n m [] [] (snd (next s3))). split; [reflexivity|].
    assert (HD : exists l3, l2 = Close :: l3 /\ stack s3 = {| rest := l2; name := name nb |} :: ns).
    { pose proof (current_head s2 (Some Close) s3 CU) as (x & l3 & xs & X1 & X2). destruct A3 as [A3|(A3 & _)]; [|congruence]. rewrite A3 in X1. injection X1 as <- <-. exists l3. split; [exact X2|exact A3]. }
    destruct HD as (l3 & -> & E3). assert (E4 : stack (snd (next s3)) = {| rest := l3; name := name nb |} :: ns) by (unfold next, current; rewrite E3; reflexivity).
    destruct (ALL (snd (next s3)) (v ++ [Close]) l3) as (F3 & B3 & L3 & D3 & N3); [exact (shrinks_trans _ _ _ SH4 (next_shrinks _))|rewrite Q, <- app_assoc; reflexivity|left; exact E4|rewrite total_app; cbn [total value]; lia|].
    apply (REP (snd (next s3)) l3); try assumption; try constructor. exact E4.
  - destruct (body m) as [|r b].
    + destruct (skip_ok (size s1) 1 s1 (name nb) ns l (Nat.le_refl _) (Nat.le_refl _) (or_introl E2) W) as (found & s2 & v & l2 & R & Q & A2 & V). pose proof (skip_shrinks (size s1) 1 s1) as SH2. rewrite R in *. cbn [left_in bind] in *.
      destruct (ALL s2 v l2 SH2 Q A2 V) as (F3 & B3 & L3 & D3 & N3). eexists 0%nat, _. split; [reflexivity|]. destruct found; [apply (REP s2 l2); try assumption; constructor|].
      destruct (ALL (fail s2) v l2 (shrinks_trans _ _ _ SH2 (shrinks_fail _)) Q A2 V) as (F4 & B4 & L4 & D4 & N4). split; [exact F4|]. split; [|split; [|reflexivity]].
      * apply (push_key sb s2 (fail s2) nb ns l2 n); try assumption; [exact (fit_small _ _ F4)|apply F4|congruence|left; reflexivity].
      * cbn [given app]. eapply drops_trans; [exact D4|]. apply (drops_insert [Name n]). intros x y Z. destruct x as [|u x]; [cbn [app] in Z; subst y; cbn; lia|]. injection Z as _ Z. symmetry in Z. apply app_eq_nil in Z. destruct Z as [_ ->]. cbn; lia.
    + destruct (eat_at is_space s1 (name nb) ns l space_value (or_introl E2) W) as (v & l2 & Q & V & A2 & _). set (s2 := eat is_space s1) in *. assert (SH2 : shrinks s1 s2) by apply eat_shrinks.
      assert (W2 : within 1 (name nb) ns l2) by (destruct W as [W|W]; [left; rewrite Q, total_app in W; lia|right; exact W]).
      destruct (collect_ok (size s2) (varargs m) (params m - 1) 1 [] [] None s2 (name nb) ns l2 0 (Nat.le_refl _) (Nat.le_refl _) A2 W2) as (c & s3 & v3 & l3 & R & Q3 & A3 & V3 & C);
        [constructor|intros x y Z; symmetry in Z; apply app_eq_nil in Z; destruct Z as [_ ->]; cbn; lia|exact I|constructor|cbn; lia|].
      pose proof (collect_shrinks (size s2) (varargs m) (params m - 1) 1 [] [] None s2) as SH3. rewrite R in *. cbn [left_in bind] in *. pose proof (shrinks_trans _ _ _ SH2 SH3) as SH4.
      assert (QQ : l = (v ++ v3) ++ l3) by (rewrite Q, Q3, app_assoc; reflexivity). assert (VV : -1 <= total (v ++ v3)) by (rewrite total_app; lia).
      assert (ERR : fit nested (fail s3) /\ lex (key (fail s3)) (key sb) /\ drops (word (stack s)) ([Name n] ++ word (stack (fail s3))) /\ Name n = Name n).
      { destruct (ALL (fail s3) (v ++ v3) l3 (shrinks_trans _ _ _ SH4 (shrinks_fail _)) QQ A3 VV) as (F4 & B4 & L4 & D4 & N4). split; [exact F4|]. split; [|split; [|reflexivity]].
        - apply (push_key sb s3 (fail s3) nb ns l3 n); try assumption; [exact (fit_small _ _ F4)|apply F4|congruence|left; reflexivity].
        - eapply drops_trans; [exact D4|]. apply (drops_insert [Name n]). intros x y Z. destruct x as [|u x]; [cbn [app] in Z; subst y; cbn; lia|]. injection Z as _ Z. symmetry in Z. apply app_eq_nil in Z. destruct Z as [_ ->]. cbn; lia. }
      destruct c as [raw| | |]; try (exists 0%nat, (Ran (Some (Name n)) (fail s3)); split; [reflexivity|exact ERR]). clear ERR.
      destruct C as (E3 & CR & LR). destruct (ALL s3 (v ++ v3) l3 SH4 QQ A3 VV) as (F3 & B3 & L3 & D3 & N3).
      destruct (args_end nested sb nb ns l3 (r :: b) SB E IH raw 0 s3 F3) as (f & rr & RR & P); [congruence|exact E3|exact CR|revert LR; apply Forall_impl; intros a H; cbn [length] in L; rewrite QQ, !app_length in L; lia|].
      exists f, (bind rr (fun expanded s4 => replace n m raw expanded s4)). split; [intros f1 Hf; rewrite (RR f1 Hf); reflexivity|].
      assert (DIS : forall outs s4, rr = Ran outs s4 -> inv s4) by (intros outs s4 ->; apply P).
      destruct rr as [outs s4|s4|s4]; cbn [bind]; [|exact I|exact P]. destruct P as (CE & F4 & E4 & B4).
      apply (REP s4 l3); [exact F4|congruence|left; congruence|exact L3|rewrite E4; exact D3| |exact CR|exact CE].
      intro X. apply N3. destruct F4 as ((_ & I4) & _). destruct F3 as ((_ & I3) & _). apply I3. apply I4 in X. unfold active in *. rewrite E4, B4 in X. exact X.
Qed.

Theorem scan_ends : forall nested s, fit nested s -> ends nested s.
Proof.
  intros nested s. remember (key s) as k eqn:EK. revert nested s EK. induction (lex_wf k) as [k _ IH0]. intros nested s -> F.
  assert (IH : forall nested1 s1, fit nested1 s1 -> lex (key s1) (key s) -> ends nested1 s1) by (intros nested1 s1 F1 L1; exact (IH0 _ L1 nested1 s1 eq_refl F1)). clear IH0.
  destruct (next s) as [t s1] eqn:NX. pose proof (next_shrinks s) as SH1. rewrite NX in SH1. cbn [snd] in SH1.
  destruct t as [t|].
  2:{ exists 1%nat, (Ran [] s1). split; [intros f1 Hf; destruct f1 as [|f1]; [lia|]; cbn [MacroModel.scan]; rewrite NX; reflexivity|].
      intros x C. rewrite app_nil_r. pose proof (current_moved s) as M. unfold next in NX. destruct (current s) as [u s2] eqn:CU. pose proof (current_head s u s2 CU) as Q. cbn [snd] in M. destruct u as [u|].
      - destruct Q as (n & l & ns & E & R). rewrite E in NX. discriminate NX.
      - rewrite (moved_word _ _ _ M), Q in C. cbn in C. rewrite app_nil_r in C. exact C. }
  pose proof (next_moved s t s1 NX) as M1. destruct (fit_moved nested s s1 _ F SH1 M1) as (F1 & _ & B1).
  (* the node the token stands in *)
  destruct (next_head s t s1 NX) as (nb & l & ns & EB & RB & E1). set (sb := snd (current s)) in *. pose proof (current_moved s) as MB. fold sb in MB. destruct (fit_moved nested s sb _ F (current_shrinks s) MB) as (FB & LB & BB).
  assert (L1 : lex (key s1) (key s)).
  { eapply lex_lexle; [|exact LB]. apply (push_key sb s1 s1 nb ns l 0); [exact (fit_small _ _ FB)|exact (fit_small _ _ F1)|apply F1|congruence|exact EB|left; exact E1|rewrite RB; cbn [length]; lia|left; reflexivity]. }
  pose proof (moved_word _ _ _ M1) as W1.
  assert (EMIT : forall u s2 w, fit nested s2 -> lex (key s2) (key s) -> word (stack s1) = w ++ word (stack s2) -> total w = 0 -> value u = value t ->
     exists f r, (forall f1, (f <= f1)%nat -> bind (scan f1 nested s2) (fun out s1 => Ran (if negb nested && is_space u then out else u :: out) s1) = r) /\ match r with More _ => False | Assert _ => True | Ran out _ => drops (word (stack s)) out end).
  { intros u s2 w F2 L2 W2 T2 V. destruct (IH nested s2 F2 L2) as (f & r & R & P). exists f, (bind r (fun out s1 => Ran (if negb nested && is_space u then out else u :: out) s1)). split; [intros f1 Hf; rewrite (R f1 Hf); reflexivity|].
    destruct r as [out s3|s3|s3]; cbn [bind]; [|exact I|exact P]. rewrite W1, W2.
    assert (G : drops ([t] ++ w ++ word (stack s2)) (u :: out)) by (cbn [app]; apply drops_cons; [exact V|]; eapply drops_trans; [apply drops_front; lia|exact P]).
    destruct (negb nested && is_space u) eqn:Q; [|exact G]. apply andb_true_iff in Q. destruct Q as [_ Q]. apply space_value in Q. eapply drops_trans; [exact G|]. apply (drops_front [u]). cbn [total]. lia. }
  assert (STEP : forall (g : nat -> result (list tok)), (forall f, scan (S f) nested s = g f) -> (exists f r, (forall f1, (f <= f1)%nat -> g f1 = r) /\ match r with More _ => False | Assert _ => True | Ran out _ => drops (word (stack s)) out end) -> ends nested s).
  { intros g G (f & r & R & P). exists (S f), r. split; [|exact P]. intros f1 Hf. destruct f1 as [|f1]; [lia|]. rewrite G. apply R. lia. }
  assert (HERE : exists f r, (forall f1, (f <= f1)%nat -> bind (scan f1 nested s1) (fun out s1 => Ran (if negb nested && is_space t then out else t :: out) s1) = r) /\ match r with More _ => False | Assert _ => True | Ran out _ => drops (word (stack s)) out end)
    by (apply (EMIT t s1 []); auto).
  destruct t as [n|n| | | | | |k]; try (eapply STEP; [intro f; cbn [MacroModel.scan]; rewrite NX; reflexivity|exact HERE]).
  destruct (table n) as [m|] eqn:T; [|eapply STEP; [intro f; cbn [MacroModel.scan]; rewrite NX, T; reflexivity|exact HERE]].
  destruct (negb nested && existsb (Nat.eqb n) (disabled s1)) eqn:OFF; [eapply STEP; [intro f; cbn [MacroModel.scan]; rewrite NX, T, OFF; reflexivity|exact HERE]|].
  destruct (if function_like m then current (if function_like m then eat is_space s1 else s1) else (Some Open, if function_like m then eat is_space s1 else s1)) as [t s3] eqn:CU.
  assert (G3 : exists w, total w = 0 /\ moved (stack s1) w (stack s3) /\ shrinks s1 s3).
  { destruct (function_like m).
    - destruct (eat_moved is_space s1 space_value) as (w & W & M). exists w. split; [exact W|]. pose proof (current_moved (eat is_space s1)) as M2. pose proof (current_shrinks (eat is_space s1)) as S2. rewrite CU in *. cbn [snd] in *. split; [|exact (shrinks_trans _ _ _ (eat_shrinks _ _) S2)].
      destruct M2 as [[X1 X2]|(dead & x & v & l2 & ns2 & X1 & X2 & X3 & X4)].
      + left. split; [exact X1|]. rewrite (moved_word _ _ _ M), <- X2, app_nil_r. reflexivity.
      + symmetry in X4. apply app_eq_nil in X4. destruct X4 as [X4 ->]. cbn [app] in X2. rewrite X3. destruct M as [[Y1 Y2]|(dead1 & y & v1 & l1 & ns1 & Y1 & Y2 & Y3 & Y4)]; [rewrite Y1 in X1; destruct dead; discriminate|].
        right. rewrite Y3 in X1. destruct dead as [|z dead].
        * injection X1 as <- <-. cbn [rest name] in *. exists dead1, y, v1, l1, ns1. rewrite X2 in *. auto.
        * injection X1 as <- ->. exists (dead1 ++ y :: dead), x, [], l2, ns2. split; [rewrite Y1, <- app_assoc; reflexivity|]. split; [exact X2|]. split; [reflexivity|].
          unfold word in X4 |- *. cbn [map concat rest] in X4. apply app_eq_nil in X4. destruct X4 as [-> X4]. rewrite app_nil_r in Y2. rewrite map_app, concat_app. cbn [map concat]. rewrite X4, !app_nil_r, Y4, Y2. reflexivity.
    - injection CU as _ <-. exists []. split; [reflexivity|]. split; [apply moved_refl|apply shrinks_refl]. }
  destruct G3 as (w & W0 & M3 & SH3). destruct (fit_moved nested s1 s3 _ F1 SH3 M3) as (F3 & L3 & B3). pose proof (lexle_lex _ _ _ L3 L1) as L3s. pose proof (moved_word _ _ _ M3) as W3.
  assert (NAME : exists f r, (forall f1, (f <= f1)%nat -> bind (scan f1 nested s3) (fun out s1 => Ran (if negb nested && is_space (Name n) then out else Name n :: out) s1) = r) /\ match r with More _ => False | Assert _ => True | Ran out _ => drops (word (stack s)) out end)
    by (apply (EMIT (Name n) s3 w); auto).
  destruct t as [t|]; [|eapply STEP; [intro f; cbn [MacroModel.scan]; rewrite NX, T, OFF, CU; reflexivity|exact NAME]].
  destruct t; try (eapply STEP; [intro f; cbn [MacroModel.scan]; rewrite NX, T, OFF, CU; reflexivity|exact NAME]).
  destruct (nested && existsb (Nat.eqb n) (disabled s3)) eqn:OFF3; [eapply STEP; [intro f; cbn [MacroModel.scan]; rewrite NX, T, OFF, CU, OFF3; reflexivity|apply (EMIT (Final n) s3 w); auto]|].
  assert (DIS : ~ In n (disabled s3)).
  { intro X. assert (Y : existsb (Nat.eqb n) (disabled s3) = true) by (apply existsb_exists; exists n; split; [exact X|apply Nat.eqb_refl]). rewrite Y, andb_true_r in OFF3. subst nested. cbn [negb andb] in OFF.
    destruct SH3 as (_ & _ & _ & DI & _). assert (Z : existsb (Nat.eqb n) (disabled s1) = true) by (apply existsb_exists; exists n; split; [exact (DI _ X)|apply Nat.eqb_refl]). congruence. }
  assert (EX : exists f r, (forall f1, (f <= f1)%nat -> expand (isolated (scan f1 true)) n m s3 = r)
     /\ match r with More _ => False | Assert _ => True | Ran t s4 => fit nested s4 /\ lex (key s4) (key s) /\ drops (word (stack s3)) (given t ++ word (stack s4)) /\ match t with Some t => t = Name n | None => True end end).
  { destruct (function_like m) eqn:FL.
    - pose proof (current_head _ _ _ CU) as (x & l3 & xs & X1 & X2).
      destruct (expand_ends nested n m s3 s3 x xs (rest x) T F3 DIS (fit_small _ _ F3) eq_refl X1) as (f & r & R & P); [rewrite X1; destruct x; reflexivity|lia|rewrite FL; exists l3; exact X2|intros s5 F5 L5; apply IH; [exact F5|exact (lex_trans _ _ _ L5 L3s)]|].
      exists f, r. split; [exact R|]. destruct r as [t s4|s4|s4]; [|exact I|exact P]. destruct P as (P1 & P2 & P3). split; [exact P1|]. split; [exact (lex_trans _ _ _ P2 L3s)|exact P3].
    - injection CU as <-.
      destruct (expand_ends nested n m s1 sb nb ns l T F1 DIS (fit_small _ _ FB)) as (f & r & R & P); [congruence|exact EB|exact E1|rewrite RB; cbn [length]; lia|rewrite FL, RB; cbn [length]; lia|intros s5 F5 L5; apply IH; [exact F5|exact (lex_lexle _ _ _ L5 LB)]|].
      exists f, r. split; [exact R|]. destruct r as [t s4|s4|s4]; [|exact I|exact P]. destruct P as (P1 & P2 & P3). split; [exact P1|]. split; [exact (lex_lexle _ _ _ P2 LB)|exact P3]. }
  destruct EX as (f & r & R & P). eapply STEP; [intro f0; cbn [MacroModel.scan]; rewrite NX, T, OFF, CU, OFF3; reflexivity|].
  destruct r as [t s4|s4|s4]; [|exists f, (Assert s4); split; [intros f1 Hf; rewrite (R f1 Hf); reflexivity|exact I]|contradiction]. destruct P as (F4 & L4 & D4 & V4).
  destruct (IH nested s4 F4 L4) as (f2 & r2 & R2 & P2).
  assert (D0 : drops (word (stack s)) (given t ++ word (stack s4))).
  { rewrite W1, W3. eapply drops_trans; [|exact D4]. rewrite app_assoc. apply drops_front. rewrite total_app, W0. cbn. lia. }
  destruct t as [t|].
  - exists (Nat.max f f2), (bind r2 (fun out s1 => Ran (if negb nested && is_space t then out else t :: out) s1)). split; [intros f1 Hf; rewrite (R f1) by lia; cbn [bind]; rewrite (R2 f1) by lia; reflexivity|].
    subst t. destruct r2 as [out s5|s5|s5]; cbn [bind]; [|exact I|exact P2]. cbn [is_space]. rewrite andb_false_r. eapply drops_trans; [exact D0|]. cbn [given app]. apply drops_cons; [reflexivity|exact P2].
  - exists (Nat.max f f2), r2. split; [intros f1 Hf; rewrite (R f1) by lia; cbn [bind]; apply R2; lia|]. destruct r2 as [out s5|s5|s5]; [|exact I|exact P2]. exact (drops_trans _ _ _ D0 P2).
Qed.
End Ends.
