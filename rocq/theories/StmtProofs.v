(** Proofs about StmtModel.v: the code follows C's semantics step by step. *)
From Coq Require Import List ZArith Bool Lia.
From Verif Require Import Base IntTypes CSpec IntModel IntProofs LowerSpec LowerModel LowerProofs
                          BranchSpec BranchModel BranchProofs BranchRun StmtSpec StmtModel StmtShape.
Import ListNotations.

Section Machine.
Variable vb : nat -> Z.
Variable rv : bool.
Variable P : list instr.
Notation mstep := (mstep vb rv P).
Notation msteps := (msteps vb rv P).

Lemma msteps_add : forall a b r, msteps (a + b) r = msteps b (msteps a r).
Proof.
  induction a as [|a IH]; intros b r; [reflexivity|]. cbn [plus StmtModel.msteps]. destruct r; [apply IH|..]; destruct b; reflexivity.
Qed.
Lemma msteps_stop : forall n r, (forall pc s m, r <> Go pc s m) -> msteps n r = r.
Proof. intros n r H. destruct n; [reflexivity|]. cbn. destruct r; try reflexivity. exfalso. eapply H. reflexivity. Qed.

Definition star (a b : mresult) : Prop := exists n, msteps n a = b.
Definition plus (a b : mresult) : Prop := exists n, msteps (S n) a = b.
Lemma star_refl : forall a, star a a.
Proof. intro a. exists O. reflexivity. Qed.
Lemma star_trans : forall a b c, star a b -> star b c -> star a c.
Proof. intros a b c [n N] [k K]. exists (n + k)%nat. rewrite msteps_add, N. exact K. Qed.
Lemma plus_star : forall a b, plus a b -> star a b.
Proof. intros a b [n N]. exists (S n). exact N. Qed.
Lemma plus_trans : forall a b c, plus a b -> star b c -> plus a c.
Proof. intros a b c [n N] [k K]. exists (n + k)%nat. change (S (n + k)) with (S n + k)%nat. rewrite msteps_add, N. exact K. Qed.
Lemma star_plus : forall a b c, star a b -> plus b c -> plus a c.
Proof. intros a b c [n N] [k K]. exists (n + k)%nat. replace (S (n + k)) with (n + S k)%nat by lia. rewrite msteps_add, N. exact K. Qed.
Lemma one : forall pc s m r, mstep pc s m = r -> plus (Go pc s m) r.
Proof. intros pc s m r H. exists O. exact H. Qed.

(** ** Code in the program *)
Variable L : list (nat * nat).
Definition placed (pc : nat) (c : list instr) : Prop :=
  exists pre post, P = pre ++ map (resolve L) c ++ post /\ length pre = pc.

Lemma placed_app : forall pc a b, placed pc (a ++ b) -> placed pc a /\ placed (pc + length a) b.
Proof.
  intros pc a b (pre & post & E & H). rewrite map_app in E. split.
  - exists pre, (map (resolve L) b ++ post). rewrite E, <- app_assoc. auto.
  - exists (pre ++ map (resolve L) a), post. rewrite E, app_length, map_length, <- !app_assoc. auto.
Qed.
Lemma placed_nth : forall pc i c, placed pc (i :: c) -> nth_error P pc = Some (resolve L i).
Proof.
  intros pc i c (pre & post & -> & <-). rewrite nth_error_app2 by lia. rewrite Nat.sub_diag. reflexivity.
Qed.
Lemma placed_cons : forall pc i c, placed pc (i :: c) -> placed (S pc) c.
Proof. intros pc i c H. apply (placed_app pc [i] c) in H. destruct H as [_ H]. rewrite Nat.add_comm in H. exact H. Qed.

Variable U : NoDup (marks P).

Lemma label_jump : forall pc n s m, nth_error P pc = Some (Plain (Jump_label n)) -> jump_to P (is_label n) s m = Go pc s m.
Proof. intros pc n s m H. unfold jump_to. rewrite (label_position P pc n U H). reflexivity. Qed.
Lemma label_step : forall pc n s m, nth_error P pc = Some (Plain (Jump_label n)) -> plus (Go pc s m) (Go (S pc) s m).
Proof. intros pc n s m H. apply one. unfold StmtModel.mstep. rewrite H. reflexivity. Qed.
Lemma jump_step : forall pc pcl n s m, nth_error P pc = Some (Plain (Jump n)) -> nth_error P pcl = Some (Plain (Jump_label n)) ->
  plus (Go pc s m) (Go pcl s m).
Proof. intros pc pcl n s m H K. apply one. unfold StmtModel.mstep. rewrite H. apply label_jump, K. Qed.

(** Expression code. *)
Lemma run_machine : forall c tg s m s1 m1, run vb c tg s m = Next (s1, m1) -> forall pc, placed pc (plain c) ->
  match tg with
  | None => star (Go pc s m) (Go (pc + length c) s1 m1)
  | Some n => exists pcl, nth_error P pcl = Some (Plain (Jump_label n)) /\ star (Go pcl s m) (Go (pc + length c) s1 m1)
  end.
Proof.
  induction c as [|i c IH]; intros tg s m s1 m1 R pc H; cbn [run] in R.
  - destruct tg; [discriminate|]. injection R as <- <-. cbn [length]. rewrite Nat.add_0_r. apply star_refl.
  - pose proof (placed_nth _ _ _ H) as N. cbn [resolve plain map] in N. pose proof (placed_cons _ _ _ H) as H1. fold plain in H1.
    cbn [length]. replace (pc + S (length c))%nat with (S pc + length c)%nat by lia.
    destruct tg as [n|].
    + assert (D : run vb c (Some n) s m = Next (s1, m1) -> exists pcl, nth_error P pcl = Some (Plain (Jump_label n)) /\ star (Go pcl s m) (Go (S pc + length c) s1 m1)).
      { intro X. exact (IH (Some n) _ _ _ _ X (S pc) H1). }
      destruct i; try (apply D, R). destruct (Nat.eqb_spec label n) as [->|]; [|apply D, R].
      exists pc. split; [exact N|]. eapply star_trans; [apply plus_star, (label_step pc n); exact N|]. exact (IH None _ _ _ _ R (S pc) H1).
    + assert (D : forall r, step vb i s m = Next r -> mstep pc s m = Go (S pc) (fst r) (snd r) ->
                  run vb c None (fst r) (snd r) = Next (s1, m1) -> star (Go pc s m) (Go (S pc + length c) s1 m1)).
      { intros r _ X Y. eapply star_trans; [apply plus_star, one, X|]. exact (IH None _ _ _ _ Y (S pc) H1). }
      destruct i; try (apply rbind_inv in R; destruct R as ([s2 m2] & R1 & R2); apply (D (s2, m2) R1); [|exact R2];
                       unfold StmtModel.mstep; rewrite N, R1; reflexivity).
      * eapply star_trans; [apply plus_star, (label_step pc label); exact N|]. exact (IH None _ _ _ _ R (S pc) H1).
      * destruct (IH (Some label) _ _ _ _ R (S pc) H1) as (pcl & Nl & X). eapply star_trans; [apply plus_star, (jump_step pc pcl label); assumption|exact X].
      * destruct s as [|a s]; [discriminate|]. destruct (Bool.eqb (negb (contents m a =? 0)%Z) on_true) eqn:B.
        -- destruct (IH (Some label) _ _ _ _ R (S pc) H1) as (pcl & Nl & X). eapply star_trans; [|exact X]. apply plus_star, one.
           unfold StmtModel.mstep. rewrite N, B. apply label_jump, Nl.
        -- eapply star_trans; [apply plus_star, one; unfold StmtModel.mstep; rewrite N, B; reflexivity|]. exact (IH None _ _ _ _ R (S pc) H1).
Qed.
End Machine.

Section Function.
Variable first : nat.
Variable ty : nat -> ity.
Variable rt : option ity.
Variable is_main : bool.
Variable body : stmt.
Variable P : list instr.
Variable L : list (nat * nat).
Variable final : counters.
Variable U : NoDup (marks P).
Variable pend : nat.                      (* the end of the body *)

Let T := all_types first ty final.
Let vb := fun x => bits (T x).
Let rv := match rt with Some _ => true | None => false end.
Notation star := (star vb rv P).
Notation plus := (plus vb rv P).
Notation placed := (placed P L).
Notation lower_stmt := (lower_stmt first ty rt).
Notation generate := (generate first ty).
Notation holds_below := (holds_below first ty).

Lemma holds_agree : forall env m m', holds_below env m -> agree first m' m -> holds_below env m'.
Proof. intros env m m' H A x X. destruct (H x X) as [O E]. split; [exact O|]. rewrite A by exact X. exact E. Qed.

(** The code of an expression, with and without a conversion. *)
Lemma expr_runs : forall e env m c q c' t v pc s, holds_below env m -> expr_ok first e -> beval ty env e = Some (t, v) ->
  generate e c = Done (q, c') -> grows c' final -> placed pc (plain (emit q)) ->
  exists r m', star (Go pc s m) (Go (pc + length (emit q)) (r :: s) m') /\ holds_below env m' /\ yields T m' r t v /\ in_range t v /\
    resolved_type q = t.
Proof.
  intros e env m c q c' t v pc s H (W & B & N) E G GF Pl.
  pose proof (generate_pushes first ty final env m e c q c' t v H W B N E G GF) as Q.
  destruct (emit_run first ty final m _ q t v m Q (agree_refl _ _)) as (r & m' & X & A & Y & _).
  exists r, m'. split; [exact (run_machine vb rv P L U (emit q) None s m _ _ (X s) pc Pl)|].
  split; [eapply holds_agree; [exact H|]; eapply agree_less; [exact A|unfold variable_of; lia]|].
  split; [exact Y|]. destruct Q as (R & [O _] & _). auto.
Qed.

Lemma expr_value : forall e env m c q c' t v, holds_below env m -> expr_ok first e -> beval ty env e = Some (t, v) ->
  generate e c = Done (q, c') -> grows c' final -> in_range t v /\ resolved_type q = t.
Proof.
  intros e env m c q c' t v H (W & B & N) E G GF.
  pose proof (generate_pushes first ty final env m e c q c' t v H W B N E G GF) as Q. destruct Q as (R & [O _] & _). auto.
Qed.

Lemma cast_runs : forall e env m c q c' t v t0 pc s, holds_below env m -> expr_ok first e -> beval ty env e = Some (t, v) ->
  generate e c = Done (q, c') -> grows c' final -> placed pc (plain (emit (cast_expr t0 q))) ->
  exists r m', star (Go pc s m) (Go (pc + length (emit (cast_expr t0 q))) (r :: s) m') /\ holds_below env m' /\
    yields T m' r t0 (convert t0 v) /\ object_value t0 (convert t0 v) /\ resolved_type q = t.
Proof.
  intros e env m c q c' t v t0 pc s H (W & B & N) E G GF Pl.
  pose proof (generate_pushes first ty final env m e c q c' t v H W B N E G GF) as Q0.
  pose proof (pushes1 first ty final m (fun a => Done (cast_expr t0 a)) _ q _ t v t0 _ (cast_tail t0) (cast_means first ty final t0 t v) Q0 eq_refl) as Q.
  destruct (emit_run first ty final m _ _ t0 _ m Q (agree_refl _ _)) as (r & m' & X & A & Y & _).
  exists r, m'. split; [exact (run_machine vb rv P L U _ None s m _ _ (X s) pc Pl)|].
  split; [eapply holds_agree; [exact H|]; eapply agree_less; [exact A|unfold variable_of; lia]|].
  split; [exact Y|]. split; [apply Q|apply Q0].
Qed.

Lemma assigned_holds : forall env m x v, holds_below env m -> object_value (ty x) v ->
  holds_below (assigned env x v) (update m x (v mod 2 ^ width (ty x))%Z).
Proof.
  intros env m x v H O y Y. unfold assigned, update. destruct (Nat.eqb_spec y x) as [->|]; [auto|]. exact (H y Y).
Qed.

Lemma effect_runs : forall f env env' m st code st' pc, holds_below env m -> effect_ok first f -> effect_value ty f env = Some env' ->
  lower_effect first ty f st = Done (code, st') -> grows (counts st') final -> placed pc code ->
  exists m', plus (Go pc [] m) (Go (pc + length code) [] m') /\ holds_below env' m'.
Proof.
  intros f env env' m st code st' pc H W E Lo G Pl. destruct f as [e|x e]; cbn [effect_value lower_effect effect_ok] in *.
  - apply with_expr_inv in Lo. destruct Lo as (q & c & Ge & Lo). apply done_inj in Lo. destruct Lo as [<- <-].
    destruct (beval ty env e) as [[t v]|] eqn:EV; [|discriminate]. injection E as <-.
    unfold plain in Pl |- *. rewrite map_app in Pl |- *. apply placed_app in Pl. destruct Pl as [Pq Pp].
    destruct (expr_runs e env m _ q c t v pc [] H W EV Ge G Pq) as (r & m' & S & H' & Y & _).
    exists m'. split; [|exact H']. eapply star_plus; [exact S|]. apply one. unfold StmtModel.mstep.
    rewrite map_length in Pp. rewrite (placed_nth _ _ _ _ _ Pp). cbn [resolve step]. rewrite app_length, !map_length. cbn. f_equal. lia.
  - apply with_expr_inv in Lo. destruct Lo as (q & c & Ge & Lo). apply done_inj in Lo. destruct Lo as [<- <-]. destruct W as [Lx W].
    destruct (beval ty env e) as [[t v]|] eqn:EV; [|discriminate]. cbn in E. injection E as <-.
    unfold lower_assignment in *.
    assert (Sh : ([Identifier x] ++ emit (cast_expr (ty x) q) ++ [Store]) ++ [Pop_expression] = Identifier x :: emit (cast_expr (ty x) q) ++ [Store; Pop_expression])
      by (cbn [app]; rewrite <- app_assoc; reflexivity).
    rewrite Sh in *. clear Sh. unfold plain in *. cbn [map] in *.
    pose proof (placed_nth _ _ _ _ _ Pl) as N0. apply placed_cons in Pl. rewrite map_app in Pl. apply placed_app in Pl. destruct Pl as [Pq Ps].
    rewrite map_length in Ps.
    destruct (cast_runs e env m _ q c t v (ty x) (S pc) [Location x] H W EV Ge G Pq) as (r & m' & S1 & H' & Y & O & _).
    exists (update m' x (convert (ty x) v mod 2 ^ width (ty x))%Z). split; [|apply assigned_holds; assumption].
    eapply plus_trans; [apply one; unfold StmtModel.mstep; rewrite N0; reflexivity|]. eapply star_trans; [exact S1|].
    assert (R : run vb [Store; Pop_expression] None (r :: [Location x]) m' = Next ([], update m' x (convert (ty x) v mod 2 ^ width (ty x))%Z)).
    { pose proof (store_run first ty final [] x r [] m' (ty x) (convert (ty x) v) (program_type first ty final x Lx) Y) as Z. cbn [app] in Z. exact Z. }
    pose proof (run_machine vb rv P L U [Store; Pop_expression] None _ _ _ _ R _ Ps) as S2. cbn beta iota in S2.
    eapply star_trans; [exact S2|]. cbn [length]. rewrite map_length, app_length. cbn [length].
    replace (S pc + length (emit (cast_expr (ty x) q)) + 2)%nat with (pc + S (length (emit (cast_expr (ty x) q)) + 2))%nat by lia. apply star_refl.
Qed.

(** A condition and the jump behind it. *)
Lemma cond_runs : forall e env m c q c' t v on n pc pcl, holds_below env m -> expr_ok first e -> beval ty env e = Some (t, v) ->
  generate e c = Done (q, c') -> grows c' final -> placed pc (plain (emit q ++ [Jump_if on n])) -> nth_error P pcl = Some (Plain (Jump_label n)) ->
  exists m', plus (Go pc [] m) (Go (if Bool.eqb (negb (v =? 0)%Z) on then pcl else pc + S (length (emit q))) [] m') /\ holds_below env m'.
Proof.
  intros e env m c q c' t v on n pc pcl H W EV Ge G Pl Nl. unfold plain in Pl. rewrite map_app in Pl. apply placed_app in Pl. destruct Pl as [Pq Pj].
  rewrite map_length in Pj. cbn [map] in Pj. apply placed_nth in Pj. cbn [resolve] in Pj.
  destruct (expr_runs e env m _ q c' t v pc [] H W EV Ge G Pq) as (r & m' & S & H' & Y & R & _).
  exists m'. split; [|exact H']. eapply star_plus; [exact S|]. apply one. unfold StmtModel.mstep. rewrite Pj, (truth_of first ty final r t v m' Y R).
  destruct (Bool.eqb (negb (v =? 0)%Z) on); [apply label_jump; assumption|]. f_equal. lia.
Qed.

(** ** Matching *)
Definition lowered (pc pc1 : nat) (x : inside) (s : stmt) (st st' : flow) : Prop :=
  exists code, lower_stmt s x st = Done (code, st') /\ placed pc code /\ pc1 = (pc + length code)%nat /\ stmt_ok first s /\ grows (counts st') final /\
    bounded x (fresh st).

Notation label_at pc n := (nth_error P pc = Some (Plain (Jump_label n))).
Definition step_code (f : option effect) (st : flow) : outcome (list instr * flow) :=
  match f with Some f => lower_effect first ty f st | None => Done ([], st) end.

Inductive mk : cont -> nat -> inside -> Prop :=
| mk_stop : mk Kstop pend outermost
| mk_seq : forall b k pc pc1 x st st', lowered pc pc1 x b st st' -> mk k pc1 x -> mk (Kseq b k) pc x
| mk_while : forall e a k pc0 pc x st st' out again,
    lowered pc0 (pc + 2) x (SWhile e a) st st' -> mk k (pc + 2) x -> placed pc (plain [Jump again; Jump_label out]) -> label_at pc0 again ->
    mk (Kwhile e a k) pc (in_loop out again x)
| mk_do : forall a e k pc0 pc pc1 x st st' out again loop c q c',
    lowered pc0 pc1 x (SDo a e) st st' -> mk k pc1 x -> generate e c = Done (q, c') -> grows c' final -> expr_ok first e ->
    placed pc (plain ([Jump_label again] ++ emit q ++ [Jump_if true loop; Jump_label out])) -> pc1 = (pc + S (S (S (length (emit q)))))%nat ->
    label_at pc0 loop -> mk (Kdo a e k) pc (in_loop out again x)
| mk_for : forall c f a k pc0 pc pc1 x st st' out again loop code st1 st2,
    lowered pc0 pc1 x (SFor c f a) st st' -> mk k pc1 x -> step_code f st1 = Done (code, st2) -> grows (counts st2) final -> all (effect_ok first) f ->
    placed pc (plain [Jump_label again] ++ code ++ plain [Jump loop; Jump_label out]) -> pc1 = (pc + S (length code + 2))%nat ->
    label_at pc0 loop -> mk (Kfor c f a k) pc (in_loop out again x)
| mk_switch : forall k pc x t out, label_at pc out -> mk k (S pc) x -> mk (Kswitch k) pc (in_switch out t x)
(* the end of a branch of an if *)
| mk_label : forall k pc n x, label_at pc n -> mk k (S pc) x -> mk k pc x
| mk_jump : forall k pc pcl n x, nth_error P pc = Some (Plain (Jump n)) -> label_at pcl n -> mk k pcl x -> mk k pc x.

(** What [mk] says at the first instruction that is not at the end of a branch. *)
Definition head (k : cont) (pc : nat) (x : inside) : Prop :=
  match k with
  | Kstop => pc = pend
  | Kseq b k => exists pc1 st st', lowered pc pc1 x b st st' /\ mk k pc1 x
  | Kwhile e a k => exists pc0 x' again st st', nth_error P pc = Some (Plain (Jump again)) /\ label_at pc0 again /\
      lowered pc0 (pc + 2) x' (SWhile e a) st st' /\ mk k (pc + 2) x'
  | Kdo a e k => exists pc0 pc1 x' again loop out st st' c q c', lowered pc0 pc1 x' (SDo a e) st st' /\ mk k pc1 x' /\
      generate e c = Done (q, c') /\ grows c' final /\ expr_ok first e /\
      placed pc (plain ([Jump_label again] ++ emit q ++ [Jump_if true loop; Jump_label out])) /\
      pc1 = (pc + S (S (S (length (emit q)))))%nat /\ label_at pc0 loop
  | Kfor c f a k => exists pc0 pc1 x' again loop out st st' code st1 st2, lowered pc0 pc1 x' (SFor c f a) st st' /\ mk k pc1 x' /\
      step_code f st1 = Done (code, st2) /\ grows (counts st2) final /\ all (effect_ok first) f /\
      placed pc (plain [Jump_label again] ++ code ++ plain [Jump loop; Jump_label out]) /\ label_at pc0 loop
  | Kswitch k => exists n x', label_at pc n /\ mk k (S pc) x'
  end.

Lemma mk_head : forall k pc x, mk k pc x -> exists pc', head k pc' x /\ forall s m, star (Go pc s m) (Go pc' s m).
Proof.
  intros k pc x M. induction M as [|b k pc pc1 x st st' Lo M IH|e a k pc0 pc x st st' out again Lo M IH Pl La|
    a e k pc0 pc pc1 x st st' out again loop c q c' Lo M IH Ge G W Pl E La|c f a k pc0 pc pc1 x st st' out again loop code st1 st2 Lo M IH Sc G W Pl E La|
    k pc x t out La M IH|k pc n x La M IH|k pc pcl n x J La M IH].
  - exists pend. split; [reflexivity|]. intros. apply star_refl.
  - exists pc. split; [exists pc1, st, st'; auto|]. intros. apply star_refl.
  - exists pc. split; [|intros; apply star_refl]. exists pc0, x, again, st, st'. apply placed_nth in Pl. auto.
  - exists pc. split; [|intros; apply star_refl]. exists pc0, pc1, x, again, loop, out, st, st', c, q, c'. auto 10.
  - exists pc. split; [|intros; apply star_refl]. exists pc0, pc1, x, again, loop, out, st, st', code, st1, st2. auto 10.
  - exists pc. split; [|intros; apply star_refl]. exists out, x. auto.
  - destruct IH as (pc' & H & S). exists pc'. split; [exact H|]. intros s m. eapply star_trans; [apply plus_star, (label_step vb rv P pc n); exact La|apply S].
  - destruct IH as (pc' & H & S). exists pc'. split; [exact H|]. intros s m. eapply star_trans; [apply plus_star, (jump_step vb rv P U pc pcl n); assumption|apply S].
Qed.


Lemma break_found : forall k pc x k', mk k pc x -> break_out k = Some k' ->
  exists n pcl x', break_label x = Some n /\ label_at pcl n /\ mk k' (S pcl) x'.
Proof.
  intros k pc x k' M. induction M as [|b k pc pc1 x st st' Lo M IH|e a k pc0 pc x st st' out again Lo M IH Pl La|
    a e k pc0 pc pc1 x st st' out again loop c q c' Lo M IH Ge G W Pl E La|c f a k pc0 pc pc1 x st st' out again loop code st1 st2 Lo M IH Sc G W Pl E La|
    k pc x t out La M IH|k pc n x La M IH|k pc pcl n x J La M IH]; intros H; cbn [break_out] in H.
  - discriminate.
  - apply IH, H.
  - injection H as <-. exists out, (S pc), x. split; [reflexivity|]. split; [apply placed_cons, placed_nth in Pl; exact Pl|]. replace (S (S pc)) with (pc + 2)%nat by lia. exact M.
  - injection H as <-. exists out, (pc + S (S (length (emit q))))%nat, x. split; [reflexivity|]. split.
    + unfold plain in Pl. rewrite !map_app in Pl. apply placed_app in Pl. destruct Pl as [_ Pl]. apply placed_app in Pl. destruct Pl as [_ Pl].
      apply placed_cons, placed_nth in Pl. rewrite !map_length in Pl. cbn [length resolve] in Pl. rewrite <- Pl. f_equal. lia.
    + rewrite E in M. replace (S (pc + S (S (length (emit q))))) with (pc + S (S (S (length (emit q)))))%nat by lia. exact M.
  - injection H as <-. exists out, (pc + S (length code + 1))%nat, x. split; [reflexivity|]. split.
    + apply placed_cons in Pl. apply placed_app in Pl. destruct Pl as [_ Pl]. apply placed_cons, placed_nth in Pl. cbn [resolve] in Pl. rewrite <- Pl. f_equal. lia.
    + rewrite E in M. replace (S (pc + S (length code + 1))) with (pc + S (length code + 2))%nat by lia. exact M.
  - injection H as <-. exists out, pc, x. auto.
  - apply IH, H.
  - apply IH, H.
Qed.

Lemma continue_found : forall k pc x s' k', mk k pc x -> continue_loop k = Some (s', k') ->
  exists n pcl, continue_label x = Some n /\ label_at pcl n /\
    ((s' = SSkip /\ exists x', mk k' pcl x') \/ exists pc1 x' st st', lowered pcl pc1 x' s' st st' /\ mk k' pc1 x').
Proof.
  intros k pc x s' k' M. induction M as [|b k pc pc1 x st st' Lo M IH|e a k pc0 pc x st st' out again Lo M IH Pl La|
    a e k pc0 pc pc1 x st st' out again loop c q c' Lo M IH Ge G W Pl E La|c f a k pc0 pc pc1 x st st' out again loop code st1 st2 Lo M IH Sc G W Pl E La|
    k pc x t out La M IH|k pc n x La M IH|k pc pcl n x J La M IH]; intros H; cbn [continue_loop] in H.
  - discriminate.
  - apply IH, H.
  - injection H as <- <-. exists again, pc0. split; [reflexivity|]. split; [exact La|]. right. exists (pc + 2)%nat, x, st, st'. auto.
  - injection H as <- <-. exists again, pc. split; [reflexivity|]. split; [apply placed_nth in Pl; exact Pl|]. left. split; [reflexivity|].
    exists (in_loop out again x). eapply mk_do; eauto.
  - injection H as <- <-. exists again, pc. split; [reflexivity|]. split; [apply placed_nth in Pl; exact Pl|]. left. split; [reflexivity|].
    exists (in_loop out again x). eapply mk_for; eauto.
  - destruct (IH H) as (n & pcl & E & R). exists n, pcl. auto.
  - apply IH, H.
  - apply IH, H.
Qed.

(** ** The parts of statements *)
Ltac opened H :=
  repeat match type of H with
  | with_expr _ _ _ _ _ = Done _ => let q := fresh "q" in let c := fresh "c" in let G := fresh "Ge" in
      apply with_expr_inv in H; destruct H as (q & c & G & H)
  | obind _ _ = Done _ => let a := fresh "code" in let st := fresh "st" in let A := fresh "A" in
      apply bind_inv in H; destruct H as (a & st & A & H)
  end; try (apply done_inj in H; destruct H as [<- <-]).

Lemma shape_of : forall s x st code st', stmt_ok first s -> lower_stmt s x st = Done (code, st') -> bounded x (fresh st) ->
  grown st st' /\ bounded x (fresh st').
Proof.
  intros s x st code st' W A B. destruct (lower_shape first ty rt s x st code st' W A B) as [G S]. split; [exact G|].
  intros id K. apply B in K. destruct S. lia.
Qed.
Lemma expr_grows : forall e c q c', expr_ok first e -> generate e c = Done (q, c') -> grows c c'.
Proof. intros e c q c' W G. destruct (expr_shape first ty e c q c' W G) as [K _]. exact K. Qed.
Lemma bounded_more : forall x a b, bounded x a -> (a <= b)%nat -> bounded x b.
Proof. intros x a b B H id K. apply B in K. lia. Qed.
Lemma bounded_expr : forall x st e q c, bounded x (fresh st) -> expr_ok first e -> generate e (counts st) = Done (q, c) -> bounded x (fresh (with_counts c st)).
Proof. intros x st e q c B W G. eapply bounded_more; [exact B|]. destruct (expr_grows _ _ _ _ W G) as [K _]. exact K. Qed.
Lemma bounded_label : forall x st, bounded x (fresh st) -> bounded x (fresh (label_taken st)).
Proof. intros x st B. eapply bounded_more; [exact B|]. cbn. unfold fresh. cbn. lia. Qed.
Lemma bounded_loop : forall x n out again, bounded x n -> bounded (in_loop out again x) n.
Proof. intros x n out again B. exact B. Qed.

Lemma effect_grows : forall f st code st', effect_ok first f -> lower_effect first ty f st = Done (code, st') -> grown st st'.
Proof. intros f st code st' W A. destruct (effect_shape first ty None f st code st' W A) as (c & -> & G & _). apply grown_counts, G. Qed.
Lemma step_grows : forall f st code st', all (effect_ok first) f -> step_code f st = Done (code, st') -> grown st st'.
Proof.
  intros [f|] st code st' W A; [eapply effect_grows; eauto|]. apply done_inj in A. destruct A as [_ <-]. apply grown_refl.
Qed.

Ltac len := rewrite ?app_length, ?map_length, ?app_length, ?map_length, ?app_length; cbn [length]; lia.

Lemma part_seq : forall a b pc pc1 x st st', lowered pc pc1 x (SSeq a b) st st' ->
  exists pca sta, lowered pc pca x a st sta /\ lowered pca pc1 x b sta st'.
Proof.
  intros a b pc pc1 x st st' (code & Lo & Pl & -> & [Wa Wb] & G & B). cbn [StmtModel.lower_stmt] in Lo. opened Lo.
  destruct (shape_of _ _ _ _ _ Wa A B) as [G1 B1]. destruct (shape_of _ _ _ _ _ Wb A0 B1) as [G2 B2].
  apply placed_app in Pl. destruct Pl as [P1 P2]. exists (pc + length code0)%nat, st0. split.
  - exists code0. repeat (split; [first [assumption|reflexivity]|]). split; [|exact B]. eapply grows_trans; [apply G2|exact G].
  - exists code1. split; [exact A0|]. split; [exact P2|]. split; [len|]. auto.
Qed.

Lemma part_if : forall e a pc pc1 x st st', lowered pc pc1 x (SIf e a) st st' ->
  exists no c q c' pca pcb sta, generate e c = Done (q, c') /\ grows c' final /\ expr_ok first e /\
    placed pc (plain (emit q ++ [Jump_if false no])) /\ pca = (pc + S (length (emit q)))%nat /\
    lowered pca pcb x a sta st' /\ label_at pcb no /\ pc1 = S pcb.
Proof.
  intros e a pc pc1 x st st' (code & Lo & Pl & -> & [We Wa] & G & B). cbn [StmtModel.lower_stmt] in Lo. opened Lo.
  assert (B1 : bounded x (fresh (with_counts c (label_taken st)))) by (eapply bounded_expr; [apply bounded_label, B|exact We|exact Ge]).
  destruct (shape_of _ _ _ _ _ Wa A B1) as [G1 B2].
  apply placed_app in Pl. destruct Pl as [P1 P2]. apply placed_app in P2. destruct P2 as [P2 P3]. apply placed_nth in P3. cbn [resolve plain map] in P3.
  unfold plain in P2, P3. rewrite map_length, app_length in P2, P3. cbn [length] in P2, P3.
  exists (fresh st), (counts (label_taken st)), q, c, (pc + S (length (emit q)))%nat, (pc + S (length (emit q)) + length code0)%nat, (with_counts c (label_taken st)).
  split; [exact Ge|]. split; [eapply grows_trans; [apply G1|exact G]|]. split; [exact We|]. split; [exact P1|]. split; [reflexivity|]. split.
  - exists code0. split; [exact A|]. split; [replace (pc + S (length (emit q)))%nat with (pc + (length (emit q) + 1))%nat by lia; exact P2|]. auto.
  - split; [rewrite <- P3; f_equal; lia|]. unfold plain. len.
Qed.

Lemma part_ifelse : forall e a b pc pc1 x st st', lowered pc pc1 x (SIfElse e a b) st st' ->
  exists no done c q c' pca pcb pcc pcd sta sta' stb, generate e c = Done (q, c') /\ grows c' final /\ expr_ok first e /\
    placed pc (plain (emit q ++ [Jump_if false no])) /\ pca = (pc + S (length (emit q)))%nat /\
    lowered pca pcb x a sta sta' /\ placed pcb (plain [Jump done; Jump_label no]) /\ pcc = S (S pcb) /\
    lowered pcc pcd x b stb st' /\ label_at pcd done /\ pc1 = S pcd /\ grown sta' st'.
Proof.
  intros e a b pc pc1 x st st' (code & Lo & Pl & -> & (We & Wa & Wb) & G & B). cbn [StmtModel.lower_stmt] in Lo. opened Lo.
  assert (B1 : bounded x (fresh (with_counts c (label_taken st)))) by (eapply bounded_expr; [apply bounded_label, B|exact We|exact Ge]).
  destruct (shape_of _ _ _ _ _ Wa A B1) as [G1 B2]. destruct (shape_of _ _ _ _ _ Wb A0 (bounded_label _ _ B2)) as [G2 B3].
  apply placed_app in Pl. destruct Pl as [P1 P2]. apply placed_app in P2. destruct P2 as [P2 P3]. apply placed_app in P3. destruct P3 as [P3 P4].
  apply placed_app in P4. destruct P4 as [P4 P5]. apply placed_nth in P5. cbn [resolve plain map] in P5.
  unfold plain in P2, P3, P4, P5. rewrite map_length, app_length in P2, P3, P4, P5. cbn [length map] in P2, P3, P4, P5.
  set (pca := (pc + (length (emit q) + 1))%nat) in *.
  exists (fresh st), (fresh st0), (counts (label_taken st)), q, c, pca, (pca + length code0)%nat, (S (S (pca + length code0))), (S (S (pca + length code0)) + length code1)%nat,
    (with_counts c (label_taken st)), st0, (label_taken st0).
  split; [exact Ge|]. split; [eapply grows_trans; [apply G1|]; eapply grows_trans; [apply grows_label|]; eapply grows_trans; [apply G2|exact G]|].
  split; [exact We|]. split; [exact P1|]. split; [unfold pca; lia|]. split.
  - exists code0. repeat (split; [first [assumption|reflexivity]|]). split; [|exact B1]. eapply grows_trans; [apply grows_label|]. eapply grows_trans; [apply G2|exact G].
  - split; [exact P3|]. split; [reflexivity|]. split.
    + exists code1. split; [exact A0|]. split; [replace (S (S (pca + length code0))) with (pca + length code0 + 2)%nat by lia; exact P4|].
      split; [reflexivity|]. split; [exact Wb|]. split; [exact G|]. apply bounded_label, B2.
    + split; [rewrite <- P5; f_equal; lia|]. split; [unfold plain, pca; len|]. eapply grown_trans; [apply grown_label|exact G2].
Qed.

Lemma part_while : forall e a k pc pc1 x st st', lowered pc pc1 x (SWhile e a) st st' -> mk k pc1 x ->
  exists again out c q c' pca pcb sta sta', label_at pc again /\ generate e c = Done (q, c') /\ grows c' final /\ expr_ok first e /\
    placed (S pc) (plain (emit q ++ [Jump_if false out])) /\ pca = (S pc + S (length (emit q)))%nat /\
    lowered pca pcb (in_loop out again x) a sta sta' /\ mk (Kwhile e a k) pcb (in_loop out again x) /\ label_at (S pcb) out /\ pc1 = S (S pcb) /\ grown sta' st'.
Proof.
  intros e a k pc pc1 x st st' Lw M. pose proof Lw as (code & Lo & Pl & E1 & [We Wa] & G & B). cbn [StmtModel.lower_stmt] in Lo. opened Lo.
  assert (B1 : bounded x (fresh (with_counts c (label_taken (label_taken st))))) by (eapply bounded_expr; [apply bounded_label, bounded_label, B|exact We|exact Ge]).
  destruct (shape_of _ _ _ _ _ Wa A (bounded_loop _ _ _ _ B1)) as [G1 B2].
  apply placed_app in Pl. destruct Pl as [P1 P2]. apply placed_app in P2. destruct P2 as [P2 P3].
  cbn [app plain map] in P1. pose proof (placed_nth _ _ _ _ _ P1) as N1. apply placed_cons in P1. fold plain in P1.
  unfold plain in P2, P3. rewrite map_length, !app_length in P2, P3. cbn [length map] in P2, P3.
  set (pca := (pc + (1 + (length (emit q) + 1)))%nat) in *. unfold plain in E1. rewrite !app_length, !map_length, !app_length in E1. cbn [length] in E1.
  exists (fresh st), (S (fresh st)), (counts (label_taken (label_taken st))), q, c, pca, (pca + length code0)%nat, (with_counts c (label_taken (label_taken st))), st0.
  split; [exact N1|]. split; [exact Ge|]. split; [eapply grows_trans; [apply G1|exact G]|]. split; [exact We|]. split; [exact P1|]. split; [unfold pca; lia|]. split.
  - exists code0. repeat (split; [first [assumption|reflexivity]|]). auto.
  - assert (E2 : pc1 = (pca + length code0 + 2)%nat) by (unfold pca; lia). rewrite E2 in *. split.
    + eapply mk_while; [exact Lw|exact M|exact P3|exact N1].
    + split; [apply placed_cons, placed_nth in P3; exact P3|]. split; [lia|apply grown_refl].
Qed.

Lemma part_do : forall a e k pc pc1 x st st', lowered pc pc1 x (SDo a e) st st' -> mk k pc1 x ->
  exists loop again out pcb sta sta', label_at pc loop /\
    lowered (S pc) pcb (in_loop out again x) a sta sta' /\ mk (Kdo a e k) pcb (in_loop out again x) /\ grown sta' st'.
Proof.
  intros a e k pc pc1 x st st' Lw M. pose proof Lw as (code & Lo & Pl & E1 & [We Wa] & G & B). cbn [StmtModel.lower_stmt] in Lo. opened Lo.
  pose proof (bounded_label _ _ (bounded_label _ _ (bounded_label _ _ B))) as B1.
  destruct (shape_of _ _ _ _ _ Wa A (bounded_loop _ _ _ _ B1)) as [G1 B2]. pose proof (expr_grows _ _ _ _ We Ge) as G2.
  apply placed_app in Pl. destruct Pl as [P1 P2]. apply placed_app in P2. destruct P2 as [P2 P3].
  apply placed_nth in P1. cbn [resolve plain map] in P1. unfold plain in P2, P3. cbn [length map] in P2, P3. fold plain in P3.
  unfold plain in E1. rewrite !app_length, !map_length, !app_length in E1. cbn [length] in E1.
  exists (fresh st), (S (fresh st)), (S (S (fresh st))), (S pc + length code0)%nat, (label_taken (label_taken (label_taken st))), st0.
  split; [exact P1|]. split.
  - exists code0. split; [exact A|]. split; [rewrite Nat.add_comm in P2; exact P2|]. split; [reflexivity|]. split; [exact Wa|].
    split; [eapply grows_trans; [exact G2|exact G]|exact B1].
  - split; [|apply grown_counts, G2]. eapply mk_do; [exact Lw|exact M|exact Ge|exact G|exact We| |lia|exact P1]. rewrite (Nat.add_comm pc 1) in P3. exact P3.
Qed.

Lemma part_for : forall cc f a k pc pc1 x st st', lowered pc pc1 x (SFor cc f a) st st' -> mk k pc1 x ->
  let e := match cc with Some e => e | None => BLit S32 1 end in
  exists loop again out c q c' pca pcb pcl sta sta', label_at pc loop /\ generate e c = Done (q, c') /\ grows c' final /\ expr_ok first e /\
    placed (S pc) (plain (emit q ++ [Jump_if false out])) /\ pca = (S pc + S (length (emit q)))%nat /\
    lowered pca pcb (in_loop out again x) a sta sta' /\ mk (Kfor cc f a k) pcb (in_loop out again x) /\ label_at pcl out /\ pc1 = S pcl /\ grown sta' st'.
Proof.
  intros cc f a k pc pc1 x st st' Lw M e. pose proof Lw as (code & Lo & Pl & E1 & (We0 & Wf & Wa) & G & B). cbn [StmtModel.lower_stmt] in Lo.
  fold e in Lo. fold (step_code f) in Lo.
  assert (We : expr_ok first e). { unfold e. destruct cc; [exact We0|]. repeat split; cbn; try lia; discriminate. }
  opened Lo. change (match f with Some f => lower_effect first ty f st0 | None => Done ([], st0) end) with (step_code f st0) in A0.
  assert (B1 : bounded x (fresh (with_counts c (label_taken (label_taken (label_taken st)))))) by (eapply bounded_expr; [apply bounded_label, bounded_label, bounded_label, B|exact We|exact Ge]).
  destruct (shape_of _ _ _ _ _ Wa A (bounded_loop _ _ _ _ B1)) as [G1 B2]. pose proof (step_grows _ _ _ _ Wf A0) as G2.
  apply placed_app in Pl. destruct Pl as [P1 P2]. apply placed_app in P2. destruct P2 as [P2 P3].
  cbn [app plain map] in P1. pose proof (placed_nth _ _ _ _ _ P1) as N1. apply placed_cons in P1. fold plain in P1.
  unfold plain in P2, P3. rewrite map_length, !app_length in P2, P3. cbn [length] in P2, P3. fold plain in P3.
  set (pca := (pc + (1 + (length (emit q) + 1)))%nat) in *. unfold plain in E1. rewrite !app_length, !map_length, !app_length in E1. cbn [length] in E1.
  exists (fresh st), (S (fresh st)), (S (S (fresh st))), (counts (label_taken (label_taken (label_taken st)))), q, c, pca, (pca + length code0)%nat, (pca + length code0 + S (length code1 + 1))%nat,
    (with_counts c (label_taken (label_taken (label_taken st)))), st0.
  split; [exact N1|]. split; [exact Ge|]. split; [eapply grows_trans; [apply G1|]; eapply grows_trans; [apply G2|exact G]|]. split; [exact We|]. split; [exact P1|]. split; [unfold pca; lia|]. split.
  - exists code0. repeat (split; [first [assumption|reflexivity]|]). split; [|exact B1]. eapply grows_trans; [apply G2|exact G].
  - split.
    + eapply mk_for; [exact Lw|exact M|exact A0|exact G|exact Wf|exact P3|unfold pca; lia|exact N1].
    + split; [|split; [unfold pca; lia|exact G2]]. apply placed_cons, placed_app in P3. destruct P3 as [_ P3]. apply placed_cons, placed_nth in P3. cbn [resolve] in P3. rewrite <- P3. f_equal. lia.
Qed.

Lemma part_switch : forall e a k pc pc1 x st st', lowered pc pc1 x (SSwitch e a) st st' -> mk k pc1 x ->
  exists out c q c' pcs pcb sta sta', generate e c = Done (q, c') /\ grows c' final /\ expr_ok first e /\
    placed pc (plain (emit (promotion_cast q))) /\ pcs = (pc + length (emit (promotion_cast q)))%nat /\
    nth_error P pcs = Some (Switch out (cases sta') (match default sta' with Some d => d | None => out end)) /\
    cases sta = [] /\ default sta = None /\
    lowered (S pcs) pcb (in_switch out (resolved_type (promotion_cast q)) x) a sta sta' /\
    mk (Kswitch k) pcb (in_switch out (resolved_type (promotion_cast q)) x) /\ label_at pcb out /\ pc1 = S pcb /\
    names st' = names sta'.
Proof.
  intros e a k pc pc1 x st st' (code & Lo & Pl & E1 & [We Wa] & G & B) M. cbn [StmtModel.lower_stmt] in Lo. opened Lo.
  change (counts (with_counts c st)) with c in *. change (names (with_counts c st)) with (names st) in *. change (fresh (with_counts c st)) with (next_label c) in *.
  set (sw := mkflow (new_label c) [] None (names st)) in *.
  assert (B1 : bounded (in_switch (next_label c) (resolved_type (promotion_cast q)) x) (fresh sw)) by (intros id K; injection K as <-; unfold fresh; cbn; lia).
  destruct (shape_of _ _ _ _ _ Wa A B1) as [G1 B2].
  apply placed_app in Pl. destruct Pl as [P1 P2]. pose proof (placed_nth _ _ _ _ _ P2) as N2. apply placed_cons in P2. apply placed_app in P2. destruct P2 as [P2 P3].
  apply placed_nth in P3. cbn [resolve plain map] in P3. cbn [resolve] in N2, P3. unfold plain in N2, P2, P3, E1. rewrite !map_length in *. rewrite !app_length, !map_length in E1. cbn [length] in E1.
  exists (next_label c), (counts st), q, c, (pc + length (emit (promotion_cast q)))%nat, (S (pc + length (emit (promotion_cast q))) + length code0)%nat, sw, st0.
  split; [exact Ge|]. split; [eapply grows_trans; [apply grows_label|]; eapply grows_trans; [apply G1|exact G]|]. split; [exact We|]. split; [exact P1|].
  split; [reflexivity|]. split; [exact N2|]. split; [reflexivity|]. split; [reflexivity|]. split.
  - exists code0. repeat (split; [first [assumption|reflexivity]|]). auto.
  - assert (E2 : pc1 = S (S (pc + length (emit (promotion_cast q))) + length code0)) by lia. rewrite E2 in M. split; [apply mk_switch; assumption|]. auto.
Qed.

(** ** Labels *)
Definition hit (p : target) (x : inside) (st : flow) (pcl : nat) : Prop :=
  match p with
  | Name n => exists l, label_at pcl l /\ In (n, l) (names st)
  | Constant t v => exists id u, switch_on x = Some (t, id) /\ nth_error P pcl = Some (Case id u) /\ In u (cases st) /\ u = wrapu 64 v
  | Default => exists d, label_at pcl d /\ default st = Some d
  end.
Definition usable (p : target) (x : inside) : Prop :=
  match p with Constant t _ => exists id, switch_on x = Some (t, id) | _ => True end.

Lemma hit_grown : forall p x st st' pcl, hit p x st pcl -> grown st st' -> hit p x st' pcl.
Proof.
  intros [n|t v|] x st st' pcl H (_ & C & N & D & _); cbn in *.
  - destruct H as (l & A & B). eauto.
  - destruct H as (id & u & A & B & E & F). exists id, u. auto.
  - destruct H as (d & A & B). eauto.
Qed.

Lemma fold_case_value : forall t t0 p0, object_value t0 (value_of_bits t0 p0) -> fold_case t (mklit t0 p0) = wrapu 64 (convert t (value_of_bits t0 p0)).
Proof.
  intros t t0 p0 [_ O]. unfold fold_case, integer_literal_as_u64. rewrite read_value, push_cast_value; [reflexivity|].
  cbn [lty]. destruct (ity_eqb_spec t0 TBool) as [E|E]; [right; exact (O E)|left; exact E].
Qed.

Lemma part_case : forall t p a pc pc1 x st st', lowered pc pc1 x (SCase t p a) st st' ->
  exists u id sta, switch_on x = Some (u, id) /\ nth_error P pc = Some (Case id (fold_case u (mklit t p))) /\ lowered (S pc) pc1 x a sta st' /\
    In (fold_case u (mklit t p)) (cases st') /\ object_value t (value_of_bits t p).
Proof.
  intros t p a pc pc1 x st st' (code & Lo & Pl & -> & [Wl Wa] & G & B). cbn [StmtModel.lower_stmt] in Lo.
  destruct (switch_on x) as [[u id]|] eqn:SX; [|discriminate]. destruct (existsb _ (cases st)); [discriminate|]. opened Lo.
  assert (B1 : bounded x (fresh (mkflow (counts st) (cases st ++ [fold_case u (mklit t p)]) (default st) (names st)))) by exact B.
  destruct (shape_of _ _ _ _ _ Wa A B1) as [(_ & C1 & _) _].
  pose proof (placed_nth _ _ _ _ _ Pl) as N1. apply placed_cons in Pl. exists u, id. eexists. split; [reflexivity|]. split; [exact N1|]. split.
  - exists code0. split; [exact A|]. split; [exact Pl|]. split; [cbn [length app]; lia|]. auto.
  - split; [|exact Wl]. apply C1. cbn. apply in_or_app. right. left. reflexivity.
Qed.

Lemma part_default : forall a pc pc1 x st st', lowered pc pc1 x (SDefault a) st st' ->
  exists d sta, label_at pc d /\ lowered (S pc) pc1 x a sta st' /\ default st' = Some d.
Proof.
  intros a pc pc1 x st st' (code & Lo & Pl & -> & Wa & G & B). cbn [StmtModel.lower_stmt] in Lo. cbn [stmt_ok] in Wa.
  destruct (switch_on x); [|discriminate]. destruct (default st); [discriminate|]. opened Lo.
  assert (B1 : bounded x (fresh (mkflow (new_label (counts st)) (cases st) (Some (fresh st)) (names st)))) by exact (bounded_label _ _ B).
  destruct (shape_of _ _ _ _ _ Wa A B1) as [(_ & _ & _ & D1 & _) _].
  pose proof (placed_nth _ _ _ _ _ Pl) as N1. apply placed_cons in Pl. exists (fresh st). eexists. split; [exact N1|]. split.
  - exists code0. split; [exact A|]. split; [exact Pl|]. split; [cbn [length app plain map]; lia|]. auto.
  - apply D1. reflexivity.
Qed.

Lemma part_label : forall n a pc pc1 x st st', lowered pc pc1 x (SLabel n a) st st' ->
  exists l sta, label_at pc l /\ lowered (S pc) pc1 x a sta st' /\ In (n, l) (names st').
Proof.
  intros n a pc pc1 x st st' (code & Lo & Pl & -> & Wa & G & B). cbn [StmtModel.lower_stmt] in Lo. cbn [stmt_ok] in Wa.
  destruct (existsb _ (names st)); [discriminate|]. opened Lo.
  assert (B1 : bounded x (fresh (mkflow (new_label (counts st)) (cases st) (default st) (names st ++ [(n, fresh st)])))) by exact (bounded_label _ _ B).
  destruct (shape_of _ _ _ _ _ Wa A B1) as [(_ & _ & N2 & _) _].
  pose proof (placed_nth _ _ _ _ _ Pl) as N1. apply placed_cons in Pl. exists (fresh st). eexists. split; [exact N1|]. split.
  - exists code0. split; [exact A|]. split; [exact Pl|]. split; [cbn [length app plain map]; lia|]. auto.
  - apply N2. cbn. apply in_or_app. right. left. reflexivity.
Qed.

Lemma grown_of : forall pc pc1 x s st st', lowered pc pc1 x s st st' -> grown st st'.
Proof. intros pc pc1 x s st st' (code & Lo & _ & _ & W & _ & B). eapply shape_of; eauto. Qed.

Lemma hit_same : forall p x y st pcl, switch_on x = switch_on y -> hit p x st pcl -> hit p y st pcl.
Proof. intros [n|t v|] x y st pcl E H; cbn in *; [exact H| |exact H]. rewrite <- E. exact H. Qed.

Lemma else_mk : forall k pcb no done x pcd, placed pcb (plain [Jump done; Jump_label no]) -> label_at pcd done -> mk k (S pcd) x -> mk k pcb x.
Proof.
  intros k pcb no done x pcd Pl La M. apply placed_nth in Pl. eapply mk_jump; [exact Pl|exact La|]. eapply mk_label; eauto.
Qed.

Theorem seek_placed : forall s p k s' k' pc pc1 x st st', lowered pc pc1 x s st st' -> mk k pc1 x -> usable p x -> seek p s k = Some (s', k') ->
  exists pcl pc' x' sta sta', hit p x st' pcl /\ lowered (S pcl) pc' x' s' sta sta' /\ mk k' pc' x'.
Proof.
  induction s as [|f|a IHa b IHb|e a IHa|e a IHa b IHb|e a IHa|a IHa e|c0 f a IHa| | |e a IHa|t p0 a IHa|a IHa|e|n|n a IHa];
    intros p k s' k' pc pc1 x st st' Lw M Us Sk; cbn [seek] in Sk; try discriminate.
  - apply part_seq in Lw. destruct Lw as (pca & sta & La & Lb). destruct (seek p a (Kseq b k)) as [[s1 k1]|] eqn:E.
    + cbn [orelse] in Sk. injection Sk as -> ->. destruct (IHa _ _ _ _ _ _ _ _ _ La (mk_seq _ _ _ _ _ _ _ Lb M) Us E) as (pcl & pc' & x' & s1 & s2 & H & Q).
      exists pcl, pc', x', s1, s2. split; [|exact Q]. eapply hit_grown; [exact H|exact (grown_of _ _ _ _ _ _ Lb)].
    + cbn [orelse] in Sk. exact (IHb _ _ _ _ _ _ _ _ _ Lb M Us Sk).
  - apply part_if in Lw. destruct Lw as (no & c & q & c' & pca & pcb & sta & _ & _ & _ & _ & _ & La & Nl & ->).
    exact (IHa p k s' k' _ _ x sta st' La (mk_label _ _ _ _ Nl M) Us Sk).
  - apply part_ifelse in Lw. destruct Lw as (no & done & c & q & c' & pca & pcb & pcc & pcd & sta & sta' & stb & _ & _ & _ & _ & _ & La & Pj & _ & Lb & Nl & -> & Gr).
    destruct (seek p a k) as [[s1 k1]|] eqn:E.
    + cbn [orelse] in Sk. injection Sk as -> ->. destruct (IHa _ _ _ _ _ _ _ _ _ La (else_mk _ _ _ _ _ _ Pj Nl M) Us E) as (pcl & pc' & x' & s1 & s2 & H & Q).
      exists pcl, pc', x', s1, s2. split; [|exact Q]. eapply hit_grown; [exact H|exact Gr].
    + cbn [orelse] in Sk. exact (IHb _ _ _ _ _ _ _ _ _ Lb (mk_label _ _ _ _ Nl M) Us Sk).
  - destruct (part_while _ _ _ _ _ _ _ _ Lw M) as (again & out & c & q & c' & pca & pcb & sta & sta' & _ & _ & _ & _ & _ & _ & La & Mk & _ & _ & Gr).
    destruct (IHa p _ s' k' _ _ _ _ _ La Mk Us Sk) as (pcl & pc' & x' & s1 & s2 & H & Q). exists pcl, pc', x', s1, s2. split; [|exact Q].
    eapply hit_grown; [|exact Gr]. eapply hit_same; [|exact H]. reflexivity.
  - destruct (part_do _ _ _ _ _ _ _ _ Lw M) as (loop & again & out & pcb & sta & sta' & _ & La & Mk & Gr).
    destruct (IHa p _ s' k' _ _ _ _ _ La Mk Us Sk) as (pcl & pc' & x' & s1 & s2 & H & Q). exists pcl, pc', x', s1, s2. split; [|exact Q].
    eapply hit_grown; [|exact Gr]. eapply hit_same; [|exact H]. reflexivity.
  - destruct (part_for _ _ _ _ _ _ _ _ _ Lw M) as (loop & again & out & c & q & c' & pca & pcb & pcl0 & sta & sta' & _ & _ & _ & _ & _ & _ & La & Mk & _ & _ & Gr).
    destruct (IHa p _ s' k' _ _ _ _ _ La Mk Us Sk) as (pcl & pc' & x' & s1 & s2 & H & Q). exists pcl, pc', x', s1, s2. split; [|exact Q].
    eapply hit_grown; [|exact Gr]. eapply hit_same; [|exact H]. reflexivity.
  - destruct p as [n|t v|]; try discriminate.
    destruct (part_switch _ _ _ _ _ _ _ _ Lw M) as (out & c & q & c' & pcs & pcb & sta & sta' & _ & _ & _ & _ & _ & _ & _ & _ & La & Mk & _ & _ & Nm).
    destruct (IHa (Name n) _ s' k' _ _ _ _ _ La Mk I Sk) as (pcl & pc' & x' & s1 & s2 & H & Q). exists pcl, pc', x', s1, s2. split; [|exact Q].
    cbn [hit] in *. rewrite Nm. exact H.
  - apply part_case in Lw. destruct Lw as (u & id & sta & SX & N1 & La & IC & Ol).
    assert (D : seek p a k = Some (s', k') -> exists pcl pc' x' sta sta', hit p x st' pcl /\ lowered (S pcl) pc' x' s' sta sta' /\ mk k' pc' x')
      by (intro X; exact (IHa _ _ _ _ _ _ _ _ _ La M Us X)).
    destruct p as [n|t1 v|]; [exact (D Sk)| |exact (D Sk)]. destruct (Z.eqb_spec (convert t1 (value_of_bits t p0)) v) as [E|]; [|exact (D Sk)].
    injection Sk as <- <-. exists pc, pc1, x, sta, st'. split; [|auto]. destruct Us as (id' & Us). rewrite Us in SX. injection SX as -> ->.
    exists id, (fold_case u (mklit t p0)). split; [exact Us|]. split; [exact N1|]. split; [exact IC|]. rewrite fold_case_value by exact Ol. rewrite E. reflexivity.
  - apply part_default in Lw. destruct Lw as (d & sta & N1 & La & DF).
    destruct p as [n|t v|]; [exact (IHa _ _ _ _ _ _ _ _ _ La M Us Sk)|exact (IHa _ _ _ _ _ _ _ _ _ La M Us Sk)|].
    injection Sk as <- <-. exists pc, pc1, x, sta, st'. split; [|auto]. exists d. auto.
  - apply part_label in Lw. destruct Lw as (l & sta & N1 & La & IN).
    assert (D : seek p a k = Some (s', k') -> exists pcl pc' x' sta sta', hit p x st' pcl /\ lowered (S pcl) pc' x' s' sta sta' /\ mk k' pc' x')
      by (intro X; exact (IHa _ _ _ _ _ _ _ _ _ La M Us X)).
    destruct p as [n1|t v|]; [|exact (D Sk)|exact (D Sk)]. destruct (Nat.eqb_spec n n1) as [->|]; [|exact (D Sk)].
    injection Sk as <- <-. exists pc, pc1, x, sta, st'. split; [|auto]. exists l. auto.
Qed.

(** What is not found is not in the lists. *)
Definition missing (p : target) (x : inside) (st st' : flow) : Prop :=
  match p with
  | Name _ => True
  | Constant t v => forall u, In u (cases st') -> In u (cases st) \/ exists w, in_range t w /\ w <> v /\ u = wrapu 64 w
  | Default => default st' = default st
  end.
Lemma missing_trans : forall p x a b c, missing p x a b -> missing p x b c -> missing p x a c.
Proof.
  intros [n|t v|] x a b c A B; cbn in *; [exact I| |congruence]. intros u H. destruct (B u H) as [K|K]; [apply A, K|right; exact K].
Qed.
Lemma missing_same : forall p x a b, cases b = cases a -> default b = default a -> missing p x a b.
Proof. intros [n|t v|] x a b C D; cbn; [exact I| |exact D]. rewrite C. auto. Qed.
Lemma missing_at : forall p x y a b, missing p x a b -> missing p y a b.
Proof. intros [n|t v|] x y a b H; exact H. Qed.
Lemma effect_missing : forall p x f st code st', lower_effect first ty f st = Done (code, st') -> missing p x st st'.
Proof. intros p x [e|y e] st code st' H; cbn [lower_effect] in H; opened H; apply missing_same; reflexivity. Qed.

Theorem seek_missing : forall s p k x st code st', stmt_ok first s -> lower_stmt s x st = Done (code, st') -> usable p x -> seek p s k = None -> missing p x st st'.
Proof.
  induction s as [|f|a IHa b IHb|e a IHa|e a IHa b IHb|e a IHa|a IHa e|c0 f a IHa| | |e a IHa|t p0 a IHa|a IHa|e|n|n a IHa];
    intros p k x st code st' W Lo Us Sk; cbn [seek StmtModel.lower_stmt stmt_ok] in *.
  - apply done_inj in Lo; destruct Lo as [<- <-]. apply missing_same; reflexivity.
  - eapply effect_missing, Lo.
  - opened Lo. destruct W as [Wa Wb]. destruct (seek p a (Kseq b k)) eqn:E; [discriminate|]. eapply missing_trans; [eapply IHa; eauto|eapply IHb; eauto].
  - opened Lo. destruct W as [We Wa]. eapply missing_trans; [|eapply IHa; eauto]. apply missing_same; reflexivity.
  - opened Lo. destruct W as (We & Wa & Wb). destruct (seek p a k) eqn:E; [discriminate|]. eapply missing_trans; [|eapply missing_trans; [eapply IHa; eauto|eapply missing_trans; [|eapply IHb; eauto]]]; apply missing_same; reflexivity.
  - opened Lo. destruct W as [We Wa]. eapply missing_trans; [|eapply missing_at, (IHa p (Kwhile e a k)); eauto]. apply missing_same; reflexivity.
  - opened Lo. destruct W as [We Wa]. eapply missing_trans; [|eapply missing_trans; [eapply missing_at, (IHa p (Kdo a e k)); eauto|]]; apply missing_same; reflexivity.
  - opened Lo. destruct W as (We & Wf & Wa). eapply missing_trans; [|eapply missing_trans; [eapply missing_at, (IHa p (Kfor c0 f a k)); eauto|]]; [apply missing_same; reflexivity|].
    destruct f; [eapply effect_missing; eauto|]. apply done_inj in A0; destruct A0 as [_ <-]. apply missing_same; reflexivity.
  - destruct (break_label x); [|discriminate]. opened Lo. apply missing_same; reflexivity.
  - destruct (continue_label x); [|discriminate]. opened Lo. apply missing_same; reflexivity.
  - opened Lo. apply missing_same; reflexivity.
  - destruct W as [Wl Wa]. destruct (switch_on x) as [[u id]|] eqn:SX; [|discriminate]. destruct (existsb _ _); [discriminate|]. opened Lo.
    destruct p as [n|t1 v|]; [exact I| |exact (IHa Default k x _ _ _ Wa A I Sk)].
    destruct (Z.eqb_spec (convert t1 (value_of_bits t p0)) v) as [E|NE]; [discriminate|].
    pose proof (IHa (Constant t1 v) k x _ _ _ Wa A Us Sk) as M. intros w Hw. destruct (M w Hw) as [K|K]; [|right; exact K]. cbn in K.
    apply in_app_or in K. destruct K as [K|[K|[]]]; [left; exact K|right]. destruct Us as (id' & Us). rewrite Us in SX. injection SX as -> ->.
    exists (convert u (value_of_bits t p0)). split; [apply convert_object|]. split; [exact NE|]. rewrite <- K. apply fold_case_value, Wl.
  - destruct (switch_on x) as [y|] eqn:SX; [|discriminate]. destruct (default st) eqn:DF; [discriminate|]. opened Lo.
    destruct p as [n|t1 v|]; [exact I| |discriminate]. exact (IHa (Constant t1 v) k x _ _ _ W A Us Sk).
  - destruct e as [e|]; destruct rt; try discriminate; opened Lo; apply missing_same; reflexivity.
  - opened Lo. apply missing_same; reflexivity.
  - destruct (existsb _ _); [discriminate|]. opened Lo.
    destruct p as [n1|t1 v|]; [exact I| |].
    + exact (IHa (Constant t1 v) k x _ _ _ W A Us Sk).
    + exact (IHa Default k x _ _ _ W A I Sk).
Qed.

Lemma seek_in_range : forall s t v k, ~ in_range t v -> seek (Constant t v) s k = None.
Proof.
  induction s as [|f|a IHa b IHb|e a IHa|e a IHa b IHb|e a IHa|a IHa e|c0 f a IHa| | |e a IHa|t0 p0 a IHa|a IHa|e|n|n a IHa]; intros t v k N; cbn [seek]; auto.
  - rewrite IHa by exact N. cbn [orelse]. auto.
  - rewrite IHa by exact N. cbn [orelse]. auto.
  - destruct (Z.eqb_spec (convert t (value_of_bits t0 p0)) v) as [E|]; [|auto]. exfalso. apply N. rewrite <- E. apply convert_range.
Qed.

(** ** The switch *)
Lemma switch_found : forall id d n w u cs s m, In u cs -> wrapu n u = w -> (forall u', In u' cs -> wrapu n u' = w -> u' = u) ->
  switch_jump P id cs d n w s m = jump_to P (is_case id u) s m.
Proof.
  induction cs as [|c cs IH]; intros s m I1 E Un; [destruct I1|]. cbn [switch_jump]. destruct (Z.eqb_spec (wrapu n c) w) as [X|X].
  - rewrite (Un c (or_introl eq_refl) X). reflexivity.
  - destruct I1 as [->|I1]; [contradiction|]. apply IH; [exact I1|exact E|]. intros u' K. apply Un. right. exact K.
Qed.
Lemma switch_missed : forall id d n w cs s m, (forall u, In u cs -> wrapu n u <> w) -> switch_jump P id cs d n w s m = jump_to P (is_label d) s m.
Proof.
  induction cs as [|c cs IH]; intros s m H; [reflexivity|]. cbn [switch_jump]. destruct (Z.eqb_spec (wrapu n c) w) as [X|X]; [|apply IH; intros u K; apply H; right; exact K].
  exfalso. exact (H c (or_introl eq_refl) X).
Qed.
Lemma width_64 : forall t, (0 <= width t <= 64)%Z.
Proof. intros []; cbn; lia. Qed.
Lemma case_word : forall t w, wrapu (width t) (wrapu 64 w) = (w mod 2 ^ width t)%Z.
Proof. intros t w. unfold wrapu at 1. apply wrapu_mod_pow, width_64. Qed.

(** ** Steps *)
Variable stF : flow.
Variable whole : lowered 0 pend outermost body (mkflow (mkcounters 0 []) [] None []) stF.
Variable named : L = names stF.
Variable last : match is_main, rt with
                | true, Some S32 => placed pend [Plain (Integer_literal (mklit S32 0)); Return]
                | _, _ => pend = length P
                end.

Lemma label_of_in : forall l n k, NoDup (map fst l) -> In (n, k) l -> label_of l n = Some k.
Proof.
  induction l as [|[a b] l IH]; intros n k N H; [destruct H|]. cbn [map fst] in N. inversion N as [|? ? N1 N2]; subst. unfold label_of. cbn [find fst].
  destruct (Nat.eqb_spec a n) as [->|NE].
  - destruct H as [H|H]; [injection H as ->; reflexivity|]. exfalso. apply N1. apply (in_map fst) in H. exact H.
  - destruct H as [H|H]; [injection H as -> ->; contradiction|]. exact (IH n k N2 H).
Qed.

Inductive sim : progress -> mresult -> Prop :=
| sim_at : forall s k env m pc pc1 x st st', lowered pc pc1 x s st st' -> mk k pc1 x -> holds_below env m -> sim (Running s k env) (Go pc [] m)
| sim_skip : forall k env m pc x, mk k pc x -> holds_below env m -> sim (Running SSkip k env) (Go pc [] m)
| sim_void : forall env m, rt = None -> holds_below env m -> sim (Returned None env) (Result None m)
| sim_value : forall env m r t v, rt = Some t -> yields T m r t v -> object_value t v -> holds_below env m -> sim (Returned (Some v) env) (Result (Some r) m)
| sim_end : forall env m, holds_below env m -> sim (Ended env) (Past_end m).

Fixpoint size (s : stmt) : nat := match s with SSeq a b => 2 + size a + size b | _ => 0 end.
Fixpoint ksize (k : cont) : nat := match k with Kseq b k => 1 + size b + ksize k | _ => 0 end.

Definition matched (s : stmt) (k : cont) (p : progress) (R : mresult) : Prop :=
  exists R', sim p R' /\ (plus R R' \/
    star R R' /\ exists s' k' env', p = Running s' k' env' /\ (size s' + ksize k' < size s + ksize k)%nat).

Lemma test_sim : forall e env m c q c' on n pc pcl yes no s k, holds_below env m -> expr_ok first e -> generate e c = Done (q, c') -> grows c' final ->
  placed pc (plain (emit q ++ [Jump_if on n])) -> label_at pcl n -> test ty e env yes no <> Undefined ->
  (forall m', holds_below env m' -> exists R', sim (Running (fst (if on then yes else no)) (snd (if on then yes else no)) env) R' /\ star (Go pcl [] m') R') ->
  (forall m', holds_below env m' -> exists R', sim (Running (fst (if on then no else yes)) (snd (if on then no else yes)) env) R' /\ star (Go (pc + S (length (emit q))) [] m') R') ->
  matched s k (test ty e env yes no) (Go pc [] m).
Proof.
  intros e env m c q c' on n pc pcl yes no s k H W Ge G Pl La D J F. unfold test in *. destruct (beval ty env e) as [[t v]|] eqn:EV; [|contradiction].
  destruct (cond_runs e env m c q c' t v on n pc pcl H W EV Ge G Pl La) as (m' & S1 & H').
  assert (X : exists R', sim (let '(s, k) := if (v =? 0)%Z then no else yes in Running s k env) R' /\
             star (Go (if Bool.eqb (negb (v =? 0)%Z) on then pcl else pc + S (length (emit q))) [] m') R').
  { destruct (v =? 0)%Z, on, yes as [ys yk], no as [ns nk]; cbn [negb Bool.eqb fst snd] in *; auto. }
  destruct X as (R' & X & S2). exists R'. split; [exact X|]. left. eapply plus_trans; [exact S1|exact S2].
Qed.

Lemma cast_type : forall t q, resolved_type (cast_expr t q) = t.
Proof.
  intros t q. unfold cast_expr, push_cast_expr. destruct (ity_eqb_spec (resolved_type q) t) as [E|E]; [exact E|]. destruct (literal q); reflexivity.
Qed.
Lemma at_the_end : forall env,
  match is_main, rt with true, Some S32 => Returned (Some 0%Z) env | _, _ => Ended env end = Ended env /\ pend = length P \/
  match is_main, rt with true, Some S32 => Returned (Some 0%Z) env | _, _ => Ended env end = Returned (Some 0%Z) env /\
    rt = Some S32 /\ placed pend [Plain (Integer_literal (mklit S32 0)); Return].
Proof. intros env. revert last. clear. destruct is_main; [|left; auto]. destruct rt as [[]|]; auto. Qed.
Lemma return_type : forall (A : Prop), (rt = None -> A) -> (forall t, rt = Some t -> A) -> A.
Proof. intros A. clear. destruct rt as [t|]; intros X Y; [exact (Y t eq_refl)|exact (X eq_refl)]. Qed.

Lemma skip_sim : forall k env pc x m, mk k pc x -> holds_below env m -> cstep ty rt body is_main SSkip k env <> Undefined ->
  matched SSkip k (cstep ty rt body is_main SSkip k env) (Go pc [] m).
Proof.
  intros k env pc x m M H D. destruct (mk_head _ _ _ M) as (pc' & Hd & S0). specialize (S0 [] m).
  assert (X : matched SSkip k (cstep ty rt body is_main SSkip k env) (Go pc' [] m)).
  2: { destruct X as (R' & A & [B|[B C]]); exists R'; (split; [exact A|]); [left; eapply star_plus; eauto|right; split; [eapply star_trans; eauto|exact C]]. }
  clear M S0. destruct k as [|b k|e a k|a e k|c f a k|k]; cbn [head cstep] in *.
  - subst pc'. assert (E : pend = length P -> matched SSkip Kstop (Ended env) (Go pend [] m)).
    { intros E. exists (Past_end m). split; [apply sim_end, H|]. left. apply one. unfold StmtModel.mstep. rewrite (proj2 (nth_error_None P pend)) by lia. rewrite E, Nat.eqb_refl. reflexivity. }
    destruct (at_the_end env) as [[-> L0]|(-> & RT & L0)]; [apply E, L0|].
    eexists. split; [eapply sim_value; [exact RT|apply (literal_yields T m (mklit S32 0))|split; [cbn; unfold in_range; cbn; lia|discriminate]|exact H]|]. left.
    pose proof (placed_nth _ _ _ _ _ L0) as N0. pose proof (placed_nth _ _ _ _ _ (placed_cons _ _ _ _ _ L0)) as N1. cbn [resolve] in N0, N1.
    eapply plus_trans; [apply one; unfold StmtModel.mstep; rewrite N0; reflexivity|]. apply plus_star, one. unfold StmtModel.mstep. rewrite N1. unfold rv. rewrite RT. reflexivity.
  - destruct Hd as (pc1 & st & st' & Lo & M). eexists. split; [eapply sim_at; eauto|]. right. split; [apply star_refl|]. eexists _, _, _. split; [reflexivity|]. cbn. lia.
  - destruct Hd as (pc0 & x' & again & st & st' & J & La & Lo & M). eexists. split; [eapply sim_at; eauto|]. left. eapply jump_step; eauto.
  - destruct Hd as (pc0 & pc1 & x' & again & loop & out & st & st' & c & q & c' & Lo & M & Ge & G & W & Pl & E & La).
    pose proof (placed_nth _ _ _ _ _ Pl) as N0. cbn [app plain map] in Pl. apply placed_cons in Pl. cbn [resolve plain map app] in N0.
    change (map Plain (emit q ++ [Jump_if true loop; Jump_label out])) with (plain (emit q ++ [Jump_if true loop; Jump_label out])) in Pl.
    assert (Pl' : placed (S pc') (plain (emit q ++ [Jump_if true loop])) /\ label_at (S pc' + S (length (emit q))) out).
    { change [Jump_if true loop; Jump_label out] with ([Jump_if true loop] ++ [Jump_label out]) in Pl. rewrite app_assoc in Pl. unfold plain in Pl. rewrite map_app in Pl.
      apply placed_app in Pl. destruct Pl as [A B]. split; [exact A|]. apply placed_nth in B. cbn [resolve] in B. rewrite map_length, app_length in B. cbn [length] in B. rewrite <- B. f_equal. lia. }
    destruct Pl' as [Pe Lo'].
    assert (X : matched SSkip (Kdo a e k) (test ty e env (SDo a e, k) (SSkip, k)) (Go (S pc') [] m)).
    { eapply (test_sim e env m c q c' true loop (S pc') pc0); eauto; intros m' H'; cbn [fst snd].
      - eexists. split; [eapply sim_at; eauto|apply star_refl].
      - eexists. split; [eapply sim_skip; [exact M|exact H']|]. apply plus_star. rewrite E. replace (pc' + S (S (S (length (emit q)))))%nat with (S (S pc' + S (length (emit q)))) by lia.
        apply (label_step vb rv P _ out). exact Lo'. }
    destruct X as (R' & A & B). exists R'. split; [exact A|]. left. eapply plus_trans; [apply (label_step vb rv P pc' again); exact N0|]. destruct B as [B|[B _]]; [apply plus_star, B|exact B].
  - destruct Hd as (pc0 & pc1 & x' & again & loop & out & st & st' & code & st1 & st2 & Lo & M & Sc & G & W & Pl & La).
    pose proof (placed_nth _ _ _ _ _ Pl) as N0. cbn [resolve plain map app] in N0. apply placed_cons in Pl. apply placed_app in Pl. destruct Pl as [Pf Pj]. apply placed_nth in Pj. cbn [resolve] in Pj.
    destruct f as [f|]; cbn [step_code all] in *.
    + destruct (effect_value ty f env) as [env'|] eqn:EF; [|contradiction]. destruct (effect_runs f env env' m st1 code st2 (S pc') H W EF Sc G Pf) as (m' & S1 & H').
      eexists. split; [eapply sim_at; [exact Lo|exact M|exact H']|]. left. eapply plus_trans; [apply (label_step vb rv P pc' again); exact N0|].
      eapply star_trans; [apply plus_star, S1|]. apply plus_star. eapply jump_step; eauto.
    + apply done_inj in Sc. destruct Sc as [<- <-]. cbn [length] in Pj. rewrite Nat.add_0_r in Pj. eexists. split; [eapply sim_at; [exact Lo|exact M|exact H]|]. left.
      eapply plus_trans; [apply (label_step vb rv P pc' again); exact N0|]. apply plus_star. eapply jump_step; eauto.
  - destruct Hd as (n & x' & La & M). eexists. split; [eapply sim_skip; eauto|]. left. apply (label_step vb rv P pc' n). exact La.
Qed.

Lemma plus_matched : forall s k p R R', sim p R' -> plus R R' -> matched s k p R.
Proof. intros s k p R R' A B. exists R'. auto. Qed.

Theorem step_sim : forall s k env R, sim (Running s k env) R -> cstep ty rt body is_main s k env <> Undefined ->
  matched s k (cstep ty rt body is_main s k env) R.
Proof.
  intros s k env R Si D. inversion Si as [s0 k0 env0 m pc pc1 x st st' Lo M H|k0 env0 m pc x M H| | |]; subst; [|eapply skip_sim; eauto]. clear Si.
  destruct s as [|f|a b|e a|e a b|e a|a e|c0 f a| | |e a|t0 p0 a|a|e|n|n a]; cbn [cstep] in *.
  - destruct Lo as (code & Lo & _ & E & _). apply done_inj in Lo. destruct Lo as [<- _]. cbn in E. rewrite Nat.add_0_r in E. subst pc1. exact (skip_sim k env pc x m M H D).
  - destruct Lo as (code & Lo & Pl & -> & W & G & B). cbn [StmtModel.lower_stmt stmt_ok] in *. destruct (effect_value ty f env) as [env'|] eqn:EF; [|contradiction].
    destruct (effect_runs f env env' m st code st' pc H W EF Lo G Pl) as (m' & S1 & H'). eapply plus_matched; [eapply sim_skip; eauto|exact S1].
  - apply part_seq in Lo. destruct Lo as (pca & sta & La & Lb). exists (Go pc [] m). split; [eapply sim_at; [exact La|eapply mk_seq; eauto|exact H]|]. right.
    split; [apply star_refl|]. eexists _, _, _. split; [reflexivity|]. cbn. lia.
  - apply part_if in Lo. destruct Lo as (no & c & q & c' & pca & pcb & sta & Ge & G & W & Pl & E & La & Nl & E1).
    eapply (test_sim e env m c q c' false no pc pcb); eauto; intros m' H'; cbn [fst snd].
    + eexists. split; [eapply sim_skip; [exact M|exact H']|]. rewrite E1. apply plus_star, (label_step vb rv P pcb no), Nl.
    + eexists. split; [|apply star_refl]. rewrite <- E. eapply sim_at; [exact La|eapply mk_label; [exact Nl|rewrite <- E1; exact M]|exact H'].
  - apply part_ifelse in Lo. destruct Lo as (no & done & c & q & c' & pca & pcb & pcc & pcd & sta & sta' & stb & Ge & G & W & Pl & E & La & Pj & E2 & Lb & Nl & E1 & Gr).
    pose proof (placed_nth _ _ _ _ _ (placed_cons _ _ _ _ _ Pj)) as Nn. cbn [resolve] in Nn. rewrite E1 in M.
    eapply (test_sim e env m c q c' false no pc (S pcb)); eauto; intros m' H'; cbn [fst snd].
    + eexists. split; [eapply sim_at; [exact Lb|eapply mk_label; eauto|exact H']|]. rewrite E2. apply plus_star, (label_step vb rv P (S pcb) no), Nn.
    + eexists. split; [|apply star_refl]. rewrite <- E. eapply sim_at; [exact La|eapply else_mk; eauto|exact H'].
  - destruct (part_while _ _ _ _ _ _ _ _ Lo M) as (again & out & c & q & c' & pca & pcb & sta & sta' & N0 & Ge & G & W & Pl & E & La & Mk & No & E1 & _).
    assert (X : matched (SWhile e a) k (test ty e env (a, Kwhile e a k) (SSkip, k)) (Go (S pc) [] m)).
    { eapply (test_sim e env m c q c' false out (S pc) (S pcb)); eauto; intros m' H'; cbn [fst snd].
      - eexists. split; [eapply sim_skip; [exact M|exact H']|]. rewrite E1. apply plus_star, (label_step vb rv P (S pcb) out), No.
      - eexists. split; [|apply star_refl]. rewrite <- E. eapply sim_at; [exact La|exact Mk|exact H']. }
    destruct X as (R' & A & B). exists R'. split; [exact A|]. left. eapply plus_trans; [apply (label_step vb rv P pc again), N0|]. destruct B as [B|[B _]]; [apply plus_star, B|exact B].
  - destruct (part_do _ _ _ _ _ _ _ _ Lo M) as (loop & again & out & pcb & sta & sta' & N0 & La & Mk & _).
    eapply plus_matched; [eapply sim_at; [exact La|exact Mk|exact H]|]. apply (label_step vb rv P pc loop), N0.
  - destruct (part_for _ _ _ _ _ _ _ _ _ Lo M) as (loop & again & out & c & q & c' & pca & pcb & pcl & sta & sta' & N0 & Ge & G & W & Pl & E & La & Mk & No & E1 & _).
    set (e := match c0 with Some e => e | None => BLit S32 1 end) in *.
    set (p := match c0 with None => Running a (Kfor None f a k) env | Some e => test ty e env (a, Kfor (Some e) f a k) (SSkip, k) end) in *.
    assert (EP : p = test ty e env (a, Kfor c0 f a k) (SSkip, k)) by (unfold p, e; destruct c0; reflexivity).
    assert (X : matched (SFor c0 f a) k p (Go (S pc) [] m)).
    { rewrite EP in *. eapply (test_sim e env m c q c' false out (S pc) pcl); eauto; intros m' H'; cbn [fst snd].
      - eexists. split; [eapply sim_skip; [exact M|exact H']|]. rewrite E1. apply plus_star, (label_step vb rv P pcl out), No.
      - eexists. split; [|apply star_refl]. rewrite <- E. eapply sim_at; [exact La|exact Mk|exact H']. }
    destruct X as (R' & A & B). exists R'. split; [exact A|]. left. eapply plus_trans; [apply (label_step vb rv P pc loop), N0|]. destruct B as [B|[B _]]; [apply plus_star, B|exact B].
  - destruct (break_out k) as [k'|] eqn:BO; [|contradiction]. cbn [continue_at].
    destruct (break_found _ _ _ _ M BO) as (n & pcl & x' & E & La & Mk). destruct Lo as (code & Lo & Pl & _). cbn [StmtModel.lower_stmt] in Lo. rewrite E in Lo.
    apply done_inj in Lo. destruct Lo as [<- _]. apply placed_nth in Pl. cbn [resolve] in Pl. eapply plus_matched; [eapply sim_skip; [exact Mk|exact H]|].
    eapply plus_trans; [eapply jump_step; eauto|]. apply plus_star, (label_step vb rv P pcl n), La.
  - destruct (continue_loop k) as [[s' k']|] eqn:BO; [|contradiction]. cbn [continue_at].
    destruct (continue_found _ _ _ _ _ M BO) as (n & pcl & E & La & Q). destruct Lo as (code & Lo & Pl & _). cbn [StmtModel.lower_stmt] in Lo. rewrite E in Lo.
    apply done_inj in Lo. destruct Lo as [<- _]. apply placed_nth in Pl. cbn [resolve] in Pl. eapply plus_matched; [|eapply jump_step; eauto].
    destruct Q as [(-> & x' & Mk)|(pc2 & x' & s1 & s2 & Lw & Mk)]; [eapply sim_skip; eauto|eapply sim_at; eauto].
  - destruct (part_switch _ _ _ _ _ _ _ _ Lo M) as (out & c & q & c' & pcs & pcb & sta & sta' & Ge & G & W & Pl & E & Ns & C0 & D0 & La & Mk & No & E1 & _).
    destruct (beval ty env e) as [[t v]|] eqn:EV; [|contradiction]. unfold promotion_cast in Pl.
    destruct (cast_runs e env m c q c' t v _ pc [] H W EV Ge G Pl) as (r & m' & S1 & H' & Y & O & RT). destruct (expr_value e env m c q c' t v H W EV Ge G) as [RG _].
    fold (promotion_cast q) in S1. rewrite <- E in S1.
    assert (PT : resolved_type (promotion_cast q) = promote t) by (unfold promotion_cast; rewrite cast_type, RT; apply promotions_eq).
    rewrite PT in *. rewrite RT, promotions_eq in Y. rewrite (promote_keeps t v RG) in Y. destruct Y as [Y1 Y2].
    assert (RP : in_range (promote t) v) by (apply promote_in, RG).
    pose proof La as (code & Lo' & _ & _ & Wa & _).
    assert (Us : forall w, usable (Constant (promote t) w) (in_switch out (promote t) x)) by (intro w; exists out; reflexivity).
    assert (Step : forall R', switch_jump P out (cases sta') (match default sta' with Some d => d | None => out end) (width (promote t)) (v mod 2 ^ width (promote t))%Z [] m' = R' ->
              plus (Go pc [] m) R').
    { intros R' X. eapply star_plus; [exact S1|]. apply one. unfold StmtModel.mstep. rewrite Ns. unfold vb. rewrite Y1, Y2. exact X. }
    destruct (seek (Constant (promote t) v) a (Kswitch k)) as [[s' k']|] eqn:SK.
    + cbn [orelse continue_at].
      destruct (seek_placed a _ _ _ _ _ _ _ _ _ La Mk (Us v) SK) as (pcl & pc' & x' & s1 & s2 & (id & u & SW & Nc & Iu & Eu) & Lw & Mk').
      cbn [switch_on in_switch] in SW. injection SW as <-.
      eapply plus_matched; [eapply sim_at; [exact Lw|exact Mk'|exact H']|]. eapply plus_trans; [apply Step|].
      * rewrite (switch_found _ _ _ _ u); [unfold jump_to; rewrite (case_position P pcl _ u U Nc); reflexivity|exact Iu|rewrite Eu; apply case_word|].
        intros u' I' E'. assert (OUT : ~ in_range (promote t) (maxv (promote t) + 1)) by (unfold in_range; lia).
        pose proof (seek_missing a _ (Kswitch k) _ _ _ _ Wa Lo' (Us _) (seek_in_range a _ _ (Kswitch k) OUT)) as Ms. cbn [missing] in Ms.
        destruct (Ms u' I') as [K|(w & Rw & _ & ->)]; [rewrite C0 in K; destruct K|]. rewrite case_word in E'. apply Z.eqb_eq in E'. rewrite mod_eqb in E' by assumption. apply Z.eqb_eq in E'. congruence.
      * apply plus_star, one. unfold StmtModel.mstep. rewrite Nc. reflexivity.
    + pose proof (seek_missing a _ (Kswitch k) _ _ _ _ Wa Lo' (Us v) SK) as Ms. cbn [missing] in Ms.
      assert (Miss : switch_jump P out (cases sta') (match default sta' with Some d => d | None => out end) (width (promote t)) (v mod 2 ^ width (promote t))%Z [] m' =
                     jump_to P (is_label (match default sta' with Some d => d | None => out end)) [] m').
      { apply switch_missed. intros u Iu E'. destruct (Ms u Iu) as [K|(w & Rw & NE & ->)]; [rewrite C0 in K; destruct K|].
        rewrite case_word in E'. apply Z.eqb_eq in E'. rewrite mod_eqb in E' by assumption. apply Z.eqb_eq in E'. congruence. }
      cbn [orelse]. destruct (seek Default a (Kswitch k)) as [[s' k']|] eqn:SD.
      * cbn [orelse continue_at].
        destruct (seek_placed a Default _ _ _ _ _ _ _ _ La Mk I SD) as (pcl & pc' & x' & s1 & s2 & (d & Nd & Ed) & Lw & Mk').
        eapply plus_matched; [eapply sim_at; [exact Lw|exact Mk'|exact H']|]. rewrite Ed in Miss, Step. eapply plus_trans; [apply Step; rewrite Miss; apply (label_jump P U pcl), Nd|].
        apply plus_star, (label_step vb rv P pcl d), Nd.
      * cbn [orelse continue_at]. pose proof (seek_missing a Default (Kswitch k) _ _ _ _ Wa Lo' I SD) as Md. cbn [missing] in Md. rewrite D0 in Md. rewrite Md in Miss, Step.
        eapply plus_matched; [eapply sim_skip; [exact M|exact H']|]. rewrite E1. eapply plus_trans; [apply Step; rewrite Miss; apply (label_jump P U pcb), No|].
        apply plus_star, (label_step vb rv P pcb out), No.
  - apply part_case in Lo. destruct Lo as (u & id & sta & _ & N1 & La & _). eapply plus_matched; [eapply sim_at; eauto|]. apply one. unfold StmtModel.mstep. rewrite N1. reflexivity.
  - apply part_default in Lo. destruct Lo as (d & sta & N1 & La & _). eapply plus_matched; [eapply sim_at; eauto|]. apply (label_step vb rv P pc d), N1.
  - destruct Lo as (code & Lo & Pl & -> & W & G & B). destruct e as [e|]; cbn [StmtModel.lower_stmt stmt_ok all] in *; apply return_type; [intro RT|intros t RT|intro RT|intros t RT];
      rewrite RT in Lo, D |- *; try contradiction; try discriminate.
    + destruct (beval ty env e) as [[te v]|] eqn:EV; [|contradiction]. opened Lo. apply placed_app in Pl. destruct Pl as [Pe Pr]. apply placed_nth in Pr. cbn [resolve] in Pr.
      destruct (cast_runs e env m _ q c te v t pc [] H W EV Ge G Pe) as (r & m' & S1 & H' & Y & O & _).
      eapply plus_matched; [eapply sim_value; [exact RT|exact Y|exact O|exact H']|]. eapply star_plus; [exact S1|]. apply one. unfold StmtModel.mstep. unfold plain in Pr. rewrite map_length in Pr. rewrite Pr.
      unfold rv. rewrite RT. reflexivity.
    + apply done_inj in Lo. destruct Lo as [<- _]. apply placed_nth in Pl. cbn [resolve] in Pl. eapply plus_matched; [eapply sim_void; [exact RT|exact H]|]. apply one. unfold StmtModel.mstep. rewrite Pl.
      unfold rv. rewrite RT. reflexivity.
  - destruct (seek (Name n) body Kstop) as [[s' k']|] eqn:SK; [|contradiction]. cbn [continue_at].
    destruct (seek_placed body (Name n) _ _ _ _ _ _ _ _ whole mk_stop I SK) as (pcl & pc' & x' & s1 & s2 & (l & Nl & Il) & Lw & Mk).
    destruct Lo as (code & Lo & Pl & _). cbn [StmtModel.lower_stmt] in Lo. apply done_inj in Lo. destruct Lo as [<- _]. apply placed_nth in Pl. cbn [resolve] in Pl.
    pose proof (grown_of _ _ _ _ _ _ whole) as (_ & _ & _ & _ & ND). specialize (ND (NoDup_nil _)). rewrite named, (label_of_in _ _ _ ND Il) in Pl.
    eapply plus_matched; [eapply sim_at; [exact Lw|exact Mk|exact H]|]. eapply plus_trans; [eapply jump_step; eauto|]. apply plus_star, (label_step vb rv P pcl l), Nl.
  - apply part_label in Lo. destruct Lo as (l & sta & N1 & La & _). eapply plus_matched; [eapply sim_at; eauto|]. apply (label_step vb rv P pc l), N1.
Qed.

(** ** Whole runs *)
Notation csteps := (csteps ty rt body is_main).
Lemma csteps_undefined : forall n, csteps n Undefined = Undefined.
Proof. destruct n; reflexivity. Qed.
Lemma csteps_add : forall a b p, csteps (a + b) p = csteps b (csteps a p).
Proof.
  induction a as [|a IH]; intros b p; [reflexivity|]. cbn [Nat.add StmtSpec.csteps]. destruct p; [apply IH|..]; destruct b; reflexivity.
Qed.

Theorem run_sim : forall n p R, sim p R -> csteps n p <> Undefined -> exists R', sim (csteps n p) R' /\ star R R'.
Proof.
  induction n as [|n IH]; intros p R Si D; [exists R; split; [exact Si|apply star_refl]|]. cbn [StmtSpec.csteps] in *.
  destruct p as [s k env|v env|env|]; try (exists R; split; [exact Si|apply star_refl]).
  assert (D1 : cstep ty rt body is_main s k env <> Undefined) by (intro X; rewrite X, csteps_undefined in D; apply D; reflexivity).
  destruct (step_sim s k env R Si D1) as (R1 & S1 & Q). destruct (IH _ R1 S1 D) as (R2 & S2 & T2). exists R2. split; [exact S2|].
  eapply star_trans; [|exact T2]. destruct Q as [Q|[Q _]]; [apply plus_star, Q|exact Q].
Qed.

Definition on (p : progress) : Prop := forall n, exists s k env, csteps n p = Running s k env.
Lemma on_step : forall s k env, on (Running s k env) -> on (cstep ty rt body is_main s k env).
Proof. intros s k env H n. exact (H (S n)). Qed.
Lemma on_moves : forall n s k env R, (size s + ksize k <= n)%nat -> on (Running s k env) -> sim (Running s k env) R ->
  exists s' k' env' R', on (Running s' k' env') /\ sim (Running s' k' env') R' /\ plus R R'.
Proof.
  induction n as [n IH] using lt_wf_ind. intros s k env R B O Si. pose proof (on_step _ _ _ O) as O1. destruct (O1 0%nat) as (s1 & k1 & env1 & E). cbn in E.
  assert (D1 : cstep ty rt body is_main s k env <> Undefined) by (rewrite E; discriminate).
  destruct (step_sim s k env R Si D1) as (R1 & S1 & Q). rewrite E in *. destruct Q as [Q|(Q & s2 & k2 & env2 & E2 & Lt)].
  - exists s1, k1, env1, R1. auto.
  - injection E2 as <- <- <-. destruct (IH (size s1 + ksize k1)%nat ltac:(lia) s1 k1 env1 R1 (le_n _) O1 S1) as (s3 & k3 & env3 & R3 & O3 & S3 & P3).
    exists s3, k3, env3, R3. split; [exact O3|]. split; [exact S3|]. eapply star_plus; eauto.
Qed.
Theorem on_runs : forall j s k env R, on (Running s k env) -> sim (Running s k env) R ->
  exists i s' k' env' R', (j <= i)%nat /\ msteps vb rv P i R = R' /\ on (Running s' k' env') /\ sim (Running s' k' env') R'.
Proof.
  induction j as [|j IH]; intros s k env R O Si; [exists 0%nat, s, k, env, R; repeat (split; [auto|]); auto|].
  destruct (on_moves _ s k env R (le_n _) O Si) as (s1 & k1 & env1 & R1 & O1 & S1 & [i Ei]).
  destruct (IH s1 k1 env1 R1 O1 S1) as (i2 & s2 & k2 & env2 & R2 & L2 & E2 & O2 & S2).
  exists (S i + i2)%nat, s2, k2, env2, R2. split; [lia|]. split; [rewrite msteps_add, Ei; exact E2|auto].
Qed.
Theorem never_ends : forall s k env R, on (Running s k env) -> sim (Running s k env) R -> forall j, exists pc st m, msteps vb rv P j R = Go pc st m.
Proof.
  intros s k env R O Si j. destruct (on_runs j s k env R O Si) as (i & s' & k' & env' & R' & Le & E & _ & S').
  replace i with (j + (i - j))%nat in E by lia. rewrite msteps_add in E. destruct (msteps vb rv P j R) as [pc st m| | |] eqn:X; [eauto|..];
    rewrite msteps_stop in E by discriminate; rewrite <- E in S'; inversion S'.
Qed.
End Function.

(** ** A whole function *)

Theorem function_sim : forall first ty rt is_main body P c env m, lower_function first ty rt is_main body = Done (P, c) -> stmt_ok first body ->
  holds_below first ty env m ->
  NoDup (marks P) /\ exists pend L stF,
    lowered first ty rt P L c 0 pend outermost body (mkflow (mkcounters 0 []) [] None []) stF /\ L = names stF /\
    match is_main, rt with
    | true, Some S32 => placed P L pend [Plain (Integer_literal (mklit S32 0)); Return]
    | _, _ => pend = length P
    end /\ sim first ty rt P L c pend (Running body Kstop env) (Go 0 [] m).
Proof.
  intros first ty rt is_main body P c env m Lo W H. unfold lower_function in Lo.
  apply bind_inv in Lo. destruct Lo as (code & st & A & Lo). destruct (forallb resolved _); [|discriminate]. apply done_inj in Lo. destruct Lo as [<- <-].
  set (tail := match is_main, rt with true, Some S32 => [Plain (Integer_literal (mklit S32 0)); Return] | _, _ => [] end).
  assert (B : bounded outermost (fresh (mkflow (mkcounters 0 []) [] None []))) by (intros id X; discriminate).
  destruct (lower_shape first ty rt body _ _ _ _ W A B) as [G (_ & N & _)].
  assert (Pl : placed (map (resolve (names st)) code ++ tail) (names st) 0 code) by (exists [], tail; auto).
  assert (Lw : lowered first ty rt (map (resolve (names st)) code ++ tail) (names st) (counts st) 0 (length code) outermost body (mkflow (mkcounters 0 []) [] None []) st).
  { exists code. repeat (split; [first [assumption|reflexivity]|]). split; [apply grows_refl|exact B]. }
  split.
  - rewrite marks_app, marks_resolve. replace (marks tail) with (@nil mark); [rewrite app_nil_r; exact N|]. unfold tail. destruct is_main, rt as [[]|]; reflexivity.
  - exists (length code), (names st), st. split; [exact Lw|]. split; [reflexivity|]. split.
    + assert (X : tail = [] -> length code = length (map (resolve (names st)) code ++ tail)) by (intros ->; rewrite app_nil_r, map_length; reflexivity).
      assert (Y : placed (map (resolve (names st)) code ++ tail) (names st) (length code) tail).
      { exists (map (resolve (names st)) code), []. rewrite app_nil_r, map_length. split; [|reflexivity]. f_equal. unfold tail. destruct is_main, rt as [[]|]; reflexivity. }
      unfold tail in *. destruct is_main, rt as [[]|]; first [exact (X eq_refl)|exact Y].
    + eapply sim_at; [exact Lw|apply mk_stop|exact H].
Qed.
