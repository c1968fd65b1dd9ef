(** The code generator for integer expressions never meets one of its internal errors: the
    instructions, sequences of instructions and the body of a function. *)
From Coq Require Import List ZArith Bool Lia Permutation.
From Verif Require Import Base EncModel EmitModel EmitBasics EmitTotal.
Import ListNotations.
Open Scope Z_scope.

(** The size of an operand in bytes and whether it is an immediate. *)
Definition entry : Set := (Z * bool)%type.
Definition word (k : Z) : Prop := k = 4 \/ k = 8.
Definition usable (c : comp) : Prop := (exists o, set_opcode c = Done o) /\ exists d, negate_condition c = Done d.

Inductive operand_step : bool -> (entry -> entry -> Prop) -> list entry -> list entry -> Prop :=
| On_top : forall (f : entry -> entry -> Prop) a b T, f a b -> operand_step false f (a :: T) (b :: T)
| On_lhs : forall (f : entry -> entry -> Prop) c a b T, f a b -> operand_step true f (c :: a :: T) (c :: b :: T).

(** What the instructions need of their operands. *)
Inductive static : ir -> list entry -> list entry -> Prop :=
| S_local : forall off k T, off_ok (- off) -> is_size k = true -> static (IR_local off k) T ((k, false) :: T)
| S_literal : forall v k T, is_size k = true -> static (IR_integer_literal v k) T ((k, true) :: T)
| S_bool : forall lhs T T', operand_step lhs (fun _ b => b = (1, false)) T T' -> static (IR_cast_to_bool lhs) T T'
| S_sign : forall from to lhs T T', is_size to = true -> operand_step lhs (fun _ b => b = (to, false)) T T' -> static (IR_sign_extend from to lhs) T T'
| S_zero : forall from to lhs T T', is_size to = true -> (from = 4 -> to = 8) -> operand_step lhs (fun _ b => b = (to, false)) T T' -> static (IR_zero_extend from to lhs) T T'
| S_truncate : forall to lhs T T', is_size to = true -> operand_step lhs (fun a b => b = (to, snd a)) T T' -> static (IR_truncate to lhs) T T'
| S_pop : forall a T, static IR_pop_expression (a :: T) T
| S_nop : forall T, static IR_nop T T
| S_compare : forall c size a b T, usable c -> word (fst a) -> fst a = fst b -> static (IR_compare c size) (b :: a :: T) ((4, false) :: T)
| S_not : forall a T, static IR_bitwise_not (a :: T) ((fst a, false) :: T)
| S_negate : forall a T, static IR_negate (a :: T) ((fst a, false) :: T)
| S_lnot : forall a T, static IR_logical_not (a :: T) ((4, false) :: T)
| S_mul : forall sg a b T, word (fst a) -> static (IR_multiply sg) (b :: a :: T) ((fst a, false) :: T)
| S_div : forall sg a b T, word (fst a) -> static (IR_divide sg) (b :: a :: T) ((fst a, false) :: T)
| S_mod : forall sg a b T, word (fst a) -> static (IR_mod sg) (b :: a :: T) ((fst a, false) :: T)
| S_simple : forall i a b T, In i [IR_add; IR_subtract; IR_or; IR_xor; IR_and] -> word (fst a) -> fst a = fst b -> static i (b :: a :: T) ((fst a, false) :: T)
| S_left : forall sg a b T, (snd b = true -> fst b = 1) -> static (IR_left_shift sg) (b :: a :: T) ((fst a, false) :: T)
| S_right : forall sg a b T, (snd b = true -> fst b = 1) -> static (IR_right_shift sg) (b :: a :: T) ((fst a, false) :: T).

Inductive statics : list ir -> list entry -> list entry -> Prop :=
| Ss_nil : forall T, statics [] T T
| Ss_cons : forall i is T T1 T2, static i T T1 -> statics is T1 T2 -> statics (i :: is) T T2.

Lemma statics_app : forall a b T T1 T2, statics a T T1 -> statics b T1 T2 -> statics (a ++ b) T T2.
Proof. intros a b T T1 T2 H. induction H as [|i is T T1 T' Hi H IH]; intro B; [exact B|]. cbn. econstructor; [exact Hi|exact (IH B)]. Qed.

Definition fit (t : entry) (x : item) : Prop := isz x = fst t /\ ilk x = 0 /\ ikd x = if snd t then KImm else KVal.
Definition agrees (T : list entry) (K : list item) : Prop := Forall2 fit T K.
(** A condition stays in the flags only in front of a logical not. *)
Definition fits (next : option ir) (T : list entry) (K : list item) : Prop :=
  agrees T K \/ (next = Some IR_logical_not /\ exists id T' K', T = (4, false) :: T' /\ K = mkitem id 4 0 KCond :: K' /\ agrees T' K').

Lemma agrees_free : forall T K, agrees T K -> free_all K.
Proof. intros T K H. induction H as [|t x T K (_ & L & _) H IH]; constructor; auto. Qed.

Section Steps.
Variable ss : Z.
Notation well := (well ss). Notation done := (done ss).

Lemma runs_assoc_r : forall A B C (e : M A) (f : A -> M B) (g : B -> M C) s Q, runs (bind e (fun a => bind (f a) g)) s Q -> runs (bind (bind e f) g) s Q.
Proof. intros A B C e f g s Q (a & s' & E & H). exists a, s'. rewrite bind_assoc. auto. Qed.

Lemma on_runs : forall lhs f (g : entry -> entry -> Prop) n m s T T' K, agrees T K -> well n s K -> operand_step lhs g T T' ->
  (forall a b x R T0, g a b -> fit a x -> agrees T0 R -> well n s (x :: R) -> runs (f (iid x)) s (fun id s' => well m s' (mkitem id (fst b) 0 (if snd b then KImm else KVal) :: R))) ->
  runs (on_operand lhs f (map iid K)) s (fun st s' => exists K', st = map iid K' /\ well m s' K' /\ agrees T' K').
Proof.
  intros lhs f g n m s T T' K A W St F. destruct St as [g a b T Hg|g c a b T Hg].
  - inversion A as [|? x ? R Ax AR]; subst. cbn [map on_operand]. eapply runs_bind; [eapply (F a b x R T); eassumption|]. cbv beta. intros id s1 W1.
    apply runs_ret. exists (mkitem id (fst b) 0 (if snd b then KImm else KVal) :: R). split; [reflexivity|]. split; [exact W1|]. constructor; [repeat split|exact AR].
  - inversion A as [|? z ? R0 Az AR0]; subst. inversion AR0 as [|? x ? R Ax AR]; subst. cbn [map on_operand].
    eapply runs_bind; [apply (F a b x (z :: R) (c :: T)); [exact Hg|exact Ax|constructor; assumption|eapply well_perm; [apply perm_swap|exact W]]|]. cbv beta. intros id s1 W1.
    apply runs_ret. exists (z :: mkitem id (fst b) 0 (if snd b then KImm else KVal) :: R). split; [reflexivity|]. split; [eapply well_perm; [apply perm_swap|exact W1]|].
    constructor; [exact Az|]. constructor; [repeat split|exact AR].
Qed.

Lemma binary_runs : forall f n m s a b c T K, agrees (b :: a :: T) K -> well n s K ->
  (forall xl xr R, fit a xl -> fit b xr -> free_all (xl :: xr :: R) -> well n s (xl :: xr :: R) -> runs (f (iid xl) (iid xr)) s (done m c R)) ->
  runs (binary f (map iid K)) s (fun st s' => exists K', st = map iid K' /\ well m s' K' /\ agrees ((c, false) :: T) K').
Proof.
  intros f n m s a b c T K A W F. inversion A as [|? xr ? K1 Ar A1]; subst. inversion A1 as [|? xl ? R Al AR]; subst. cbn [map binary].
  eapply runs_bind; [apply (F xl xr R Al Ar)|].
  - pose proof (agrees_free _ _ A) as Fr. inversion Fr as [|? ? Lr Fr1]; subst. inversion Fr1; subst. repeat constructor; assumption.
  - eapply well_perm; [apply perm_swap|exact W].
  - cbv beta. intros id s1 (W1 & _). apply runs_ret. exists (mkitem id c 0 KVal :: R). split; [reflexivity|]. split; [exact W1|]. constructor; [repeat split|exact AR].
Qed.

Lemma few_agrees : forall T K, agrees T K -> few K.
Proof. intros T K A. apply (few_free [] K); [cbn; lia|exact (agrees_free _ _ A)]. Qed.

Lemma kind_not_cond : forall t x, fit t x -> ikd x <> KCond.
Proof. intros t x (_ & _ & K). rewrite K. destruct (snd t); discriminate. Qed.

Lemma negate_usable : forall c d, negate_condition c = Done d -> usable d.
Proof. intros c d H. destruct c; cbn in H; try discriminate; injection H as <-; split; eexists; reflexivity. Qed.

Lemma cond_new : forall n s R c, well n s R -> usable c ->
  runs (emit_location_conditional c) s (fun id s' => well n s' (mkitem id 4 0 KCond :: R)).
Proof.
  intros n s R c W (So & Ne). unfold emit_location_conditional. eexists _, _. split; [reflexivity|].
  apply (well_new ss n s R (mkitem (length (heap s)) 4 0 KCond) (Conditional c) 0 W); auto. cbn. auto.
Qed.

(** A condition is loaded, or kept for the logical not that follows. *)
Definition kept (next : option ir) : Prop := match next with None | Some (IR_jump_if _ _) => False | _ => True end.
Lemma keep_runs : forall next n s id T R, kept next -> well (n + 2) s (mkitem id 4 0 KCond :: R) -> 0 <= n -> agrees T R ->
  runs (id <- (if keeps_condition next then ret id else emit_load_gpr ss id) ;; ret (id :: map iid R)) s
    (fun st s' => exists K', st = map iid K' /\ well n s' K' /\ fits next ((4, false) :: T) K').
Proof.
  intros next n s id T R Kn W Hn A. destruct (keeps_condition next) eqn:Ek.
  - eapply runs_bind with (P := fun i s' => i = id /\ s' = s); [apply runs_ret; auto|]. intros i s0 (-> & ->). apply runs_ret.
    exists (mkitem id 4 0 KCond :: R). split; [reflexivity|]. split; [eapply well_less; [exact W|lia]|]. right.
    split; [destruct next as [[]|]; cbn in Kn, Ek; try contradiction; try discriminate; reflexivity|]. exists id, T, R. auto.
  - eapply runs_bind; [apply (load_runs ss n s R (mkitem id 4 0 KCond) W Hn eq_refl (few_agrees _ _ A))|]. cbv beta. intros j s1 (W1 & _). apply runs_ret.
    exists (mkitem j 4 0 KVal :: R). split; [reflexivity|]. split; [exact W1|]. left. constructor; [repeat split|exact A].
Qed.

Lemma to_agrees : forall i T K, fits (Some i) T K -> i <> IR_logical_not -> agrees T K.
Proof. intros i T K [A|(E & _)] N; [exact A|congruence]. Qed.

Lemma weaken_fits : forall (e : M (list nat)) s m T next, 
  runs e s (fun st s' => exists K', st = map iid K' /\ well m s' K' /\ agrees T K') ->
  runs e s (fun st s' => exists K', st = map iid K' /\ well m s' K' /\ fits next T K').
Proof. intros e s m T next H. eapply runs_weaken; [exact H|]. cbv beta. intros st s1 (K' & E & W & A). exists K'. split; [exact E|]. split; [exact W|left; exact A]. Qed.

Lemma step_runs : forall i next n s T T' K, static i T T' -> fits (Some i) T K -> well (n + 6) s K -> 0 <= n -> kept next ->
  runs (emit_ir ss i next (map iid K)) s (fun st s' => exists K', st = map iid K' /\ well n s' K' /\ fits next T' K').
Proof.
  intros i next n s T T' K St Ft W Hn Kn.
  assert (Ag : i <> IR_logical_not -> agrees T K) by (intro X; eapply to_agrees; eassumption).
  destruct St; cbn [emit_ir]; try (specialize (Ag ltac:(discriminate)); clear Ft).
  - apply weaken_fits. eapply runs_bind with (P := fun id s' => well (n + 6) s' (mkitem id k 0 KVal :: K)).
    { unfold emit_location_stack_relative. eexists _, _. split; [reflexivity|].
      apply (well_new ss (n + 6) s K (mkitem (length (heap s)) k 0 KVal) (RegRel 0%nat None 0 (- off)) 0 W); cbn; auto. }
    intros id s1 W1. apply runs_ret. exists (mkitem id k 0 KVal :: K). split; [reflexivity|]. split; [eapply well_less; [exact W1|lia]|]. constructor; [repeat split|exact Ag].
  - apply weaken_fits. eapply runs_bind with (P := fun id s' => well (n + 6) s' (mkitem id k 0 KImm :: K)).
    { unfold emit_location_immediate. eexists _, _. split; [reflexivity|].
      apply (well_new ss (n + 6) s K (mkitem (length (heap s)) k 0 KImm) (Immediate (wraps 64 v)) 0 W); cbn; auto. }
    intros id s1 W1. apply runs_ret. exists (mkitem id k 0 KImm :: K). split; [reflexivity|]. split; [eapply well_less; [exact W1|lia]|]. constructor; [repeat split|exact Ag].
  - apply weaken_fits. eapply on_runs; [exact Ag|exact W|exact H|]. cbv beta. intros a b x R T0 -> Fx A0 Wx. cbn [fst snd].
    eapply runs_bind; [apply (load_runs ss (n + 2) s R x); [eapply well_less; [exact Wx|lia]|lia|apply Fx|exact (few_agrees _ _ A0)]|]. cbv beta. intros id s1 (W1 & (r & R1) & _).
    eapply runs_bind; [apply (zero_runs ss _ s1 R (mkitem id (isz x) 0 KVal) r W1 R1 eq_refl)|]. cbv beta. intros c s2 (W2 & _).
    eapply runs_bind; [apply (modify_item ss (n + 2) s2 R (mkitem c 4 0 KCond) (mkitem c 1 0 KCond) (with_size 1) W2); cbn; try reflexivity; try lia|]. cbv beta. intros _ s3 (W3 & _).
    eapply runs_weaken; [apply (load_runs ss n s3 R (mkitem c 1 0 KCond) W3 Hn eq_refl (few_agrees _ _ A0))|]. cbv beta. intros j s4 (W4 & _). exact W4.
  - apply weaken_fits. eapply on_runs; [exact Ag|exact W|exact H0|]. cbv beta. intros a b x R T0 -> Fx A0 Wx. cbn [fst snd].
    eapply runs_weaken; [apply (cast_runs ss n s R x to); [eapply well_less; [exact Wx|lia]|exact Hn| |eapply kind_not_cond; exact Fx|exact H]|].
    + constructor; [apply Fx|eapply agrees_free; exact A0].
    + cbv beta. intros j s1 (W1 & _). exact W1.
  - apply weaken_fits. eapply on_runs; [exact Ag|exact W|exact H1|]. cbv beta. intros a b x R T0 -> Fx A0 Wx. cbn [fst snd].
    assert (Fr : free_all (x :: R)) by (constructor; [apply Fx|eapply agrees_free; exact A0]).
    destruct (Z.eqb_spec from 4) as [->|N].
    + rewrite (H0 eq_refl). eapply runs_bind; [apply (cast_runs ss n s R x 4); [eapply well_less; [exact Wx|lia]|exact Hn|exact Fr|eapply kind_not_cond; exact Fx|reflexivity]|].
      cbv beta. intros j s1 (W1 & _).
      eapply runs_bind; [apply (modify_item ss n s1 R (mkitem j 4 0 KVal) (mkitem j 8 0 KVal) (with_size 8) W1); cbn; try reflexivity; try lia; discriminate|]. cbv beta. intros _ s2 (W2 & _).
      apply runs_ret. exact W2.
    + eapply runs_weaken; [apply (cast_runs ss n s R x to); [eapply well_less; [exact Wx|lia]|exact Hn|exact Fr|eapply kind_not_cond; exact Fx|exact H]|].
      cbv beta. intros j s1 (W1 & _). exact W1.
  - apply weaken_fits. eapply on_runs; [exact Ag|exact W|exact H0|]. cbv beta. intros a b x R T0 -> Fx A0 Wx. cbn [fst snd].
    destruct Fx as (Zx & Lx & Kx).
    eapply runs_bind; [apply (modify_item ss (n + 6) s R x (mkitem (iid x) to 0 (ikd x)) (with_size to) Wx); cbn; auto; try lia; [rewrite Kx; destruct (snd a); discriminate|intro st; rewrite Lx; reflexivity]|].
    cbv beta. intros _ s1 (W1 & _). apply runs_ret. rewrite <- Kx. eapply well_less; [exact W1|lia].
  - apply weaken_fits. inversion Ag as [|? x ? R Ax AR]; subst. cbn [map].
    eapply runs_bind; [apply (free_runs ss (n + 6) s R x W); apply Ax|]. cbv beta. intros _ s1 (W1 & _). apply runs_ret. exists R. split; [reflexivity|]. split; [eapply well_less; [exact W1|lia]|exact AR].
  - apply weaken_fits. apply runs_ret. exists K. split; [reflexivity|]. split; [eapply well_less; [exact W|lia]|exact Ag].
  - inversion Ag as [|? xr ? K1 Ar A1]; subst. inversion A1 as [|? xl ? R Al AR]; subst. cbn [map binary].
    assert (Fr : free_all (xl :: xr :: R)).
    { repeat constructor; [apply Al|apply Ar|eapply agrees_free; exact AR]. }
    destruct Al as (Zl & Ll & Kl). pose proof (kind_not_cond _ _ Ar) as Kr. destruct Ar as (Zr & Lr & _).
    apply runs_assoc_r. eapply runs_bind; [apply (binary_op_runs ss (n + 2) s R xl xr); [replace (n + 2 + 4) with (n + 6) by lia; eapply well_perm; [apply perm_swap|exact W]|lia|exact Fr|exact Kr|congruence|unfold word in *; lia]|].
    cbv beta. intros d s1 (W1 & _).
    apply runs_assoc_r. eapply runs_bind; [apply (free_runs ss (n + 2) s1 R _ W1 eq_refl)|]. cbv beta. intros _ s2 (W2 & _).
    apply runs_assoc_r. eapply runs_bind; [apply (cond_new (n + 2) s2 R c W2 H)|]. cbv beta. intros id s3 W3.
    apply keep_runs; auto.
  - apply weaken_fits. eapply (on_runs false _ (fun a b => b = (fst a, false))); [exact Ag|exact W|constructor; reflexivity|]. cbv beta. intros a0 b x R T0 -> Fx A0 Wx. cbn [fst snd].
    eapply runs_bind; [apply (load_runs ss n s R x); [eapply well_less; [exact Wx|lia]|exact Hn|apply Fx|exact (few_agrees _ _ A0)]|]. cbv beta. intros id s1 (W1 & (r & R1) & _).
    eapply runs_bind; [apply (ext_runs ss n s1 _ no_prefix _ 2 (mkitem id (isz x) 0 KVal) r W1 eq_refl (or_introl eq_refl) R1)|]. cbv beta. intros _ s2 (W2 & _). apply runs_ret.
    destruct Fx as (<- & _). exact W2.
  - apply weaken_fits. eapply (on_runs false _ (fun a b => b = (fst a, false))); [exact Ag|exact W|constructor; reflexivity|]. cbv beta. intros a0 b x R T0 -> Fx A0 Wx. cbn [fst snd].
    eapply runs_bind; [apply (load_runs ss n s R x); [eapply well_less; [exact Wx|lia]|exact Hn|apply Fx|exact (few_agrees _ _ A0)]|]. cbv beta. intros id s1 (W1 & (r & R1) & _).
    eapply runs_bind; [apply (ext_runs ss n s1 _ no_prefix _ 3 (mkitem id (isz x) 0 KVal) r W1 eq_refl (or_introl eq_refl) R1)|]. cbv beta. intros _ s2 (W2 & _). apply runs_ret.
    destruct Fx as (<- & _). exact W2.
  - (* logical not *)
    assert (Tail : forall s1 id R T0, agrees T0 R -> well (n + 2) s1 (mkitem id 4 0 KCond :: R) ->
      runs (y <- (l <- get id ;; match l_state l with
            | Conditional c => c <- lift (negate_condition c) ;; set id (with_state (Conditional c) l) ;;; (if keeps_condition next then ret id else emit_load_gpr ss id)
            | _ => crash end) ;; ret (y :: map iid R)) s1
        (fun st s' => exists K', st = map iid K' /\ well n s' K' /\ fits next ((4, false) :: T0) K')).
    { intros s1 id R T0 A0 W1. apply runs_assoc_r. eapply runs_bind; [apply (get_runs ss _ _ _ (mkitem id 4 0 KCond) W1); left; reflexivity|]. cbv beta.
      intros l s0 (-> & st & -> & Hs & Ok). cbn [l_state]. unfold state_ok in Ok. cbn [ikd] in Ok. destruct st as [|?|? [] ? ?|c|]; try contradiction.
      destruct Ok as (_ & (d & Hd) & _). apply runs_assoc_r. eapply runs_bind with (P := fun d' s' => d' = d /\ s' = s1); [unfold runs, lift; rewrite Hd; eexists _, _; split; [reflexivity|auto]|].
      intros d' s0 (-> & ->). apply runs_assoc_r.
      eapply runs_bind with (P := fun _ s' => well (n + 2) s' (mkitem id 4 0 KCond :: R)); [|intros _ s2 W2; apply keep_runs; auto].
      eexists _, _. split; [reflexivity|].
      destruct (negate_usable _ _ Hd) as (So & Ne).
      pose proof (set_item ss (n + 2) s1 R (mkitem id 4 0 KCond) (mkitem id 4 0 KCond) (Conditional d) (rmap s1) W1 eq_refl eq_refl ltac:(cbn; lia)) as X.
      assert (Y : well (n + 2) (in_map (rmap s1) (in_heap (replace_nth id (mkloc (Conditional d) 4 0 0) (heap s1)) s1)) (mkitem id 4 0 KCond :: R)).
      { apply X; [|cbn in Hs |- *; rewrite Hs; discriminate|reflexivity|cbn; auto].
        intros q Hq. exfalso. revert Hq. eapply (not_loaded ss _ s1 _ (mkitem id 4 0 KCond)); [exact W1|left; reflexivity|exact Hs|discriminate]. }
      eapply well_ext; [exact Y|intro; reflexivity|reflexivity|reflexivity]. }
    destruct Ft as [A|(_ & id & T' & K' & ET & -> & A')].
    + inversion A as [|? x ? R Ax AR]; subst. cbn [map on_operand]. apply runs_assoc_r.
      eapply runs_bind; [apply (get_runs ss _ _ _ x W); left; reflexivity|]. cbv beta. intros l s0 (-> & st & -> & Hs & Ok). cbn [l_state].
      apply runs_assoc_r. eapply runs_bind with (P := fun id s' => well (n + 2) s' (mkitem id 4 0 KCond :: R)); [|intros id s1 W1; apply Tail; assumption].
      assert (Gen : runs (id <- emit_load_gpr ss (iid x) ;; emit_compare_to_zero id) s (fun id s' => well (n + 2) s' (mkitem id 4 0 KCond :: R))).
      { eapply runs_bind; [apply (load_runs ss (n + 2) s R x); [eapply well_less; [exact W|lia]|lia|apply Ax|exact (few_agrees _ _ AR)]|]. cbv beta. intros id s1 (W1 & (r & R1) & _).
        eapply runs_weaken; [apply (zero_runs ss _ s1 R (mkitem id (isz x) 0 KVal) r W1 R1 eq_refl)|]. cbv beta. intros c s2 (W2 & _). exact W2. }
      destruct st as [|?|? ? ? ?|c|]; try exact Gen. exfalso. unfold state_ok in Ok. destruct (kind_not_cond _ _ Ax). destruct (ikd x); [contradiction|contradiction|reflexivity].
    + injection ET as -> ->. cbn [map on_operand iid]. apply runs_assoc_r.
      eapply runs_bind; [apply (get_runs ss _ _ _ (mkitem id 4 0 KCond) W); left; reflexivity|]. cbv beta. intros l s0 (-> & st & -> & Hs & Ok). cbn [l_state].
      unfold state_ok in Ok. cbn [ikd] in Ok. destruct st as [|?|? [] ? ?|c|]; try contradiction.
      apply runs_assoc_r. eapply runs_bind with (P := fun i s' => i = id /\ s' = s); [apply runs_ret; auto|]. intros i s0 (-> & ->).
      apply Tail; [exact A'|eapply well_less; [exact W|lia]].
  - apply weaken_fits. eapply binary_runs; [exact Ag|exact W|]. intros xl xr R Fl Frr Fr Wx. destruct Fl as (Zl & Fl).
    eapply runs_bind; [apply (get_runs ss _ _ _ xl Wx); left; reflexivity|]. cbv beta. intros l s0 (-> & st & -> & _). cbn [l_size]. rewrite <- Zl in *.
    apply dmm_runs; auto. eapply well_less; [exact Wx|lia].
  - apply weaken_fits. eapply binary_runs; [exact Ag|exact W|]. intros xl xr R Fl Frr Fr Wx. destruct Fl as (Zl & Fl).
    eapply runs_bind; [apply (get_runs ss _ _ _ xl Wx); left; reflexivity|]. cbv beta. intros l s0 (-> & st & -> & _). cbn [l_size]. rewrite <- Zl in *.
    apply dmm_runs; auto. eapply well_less; [exact Wx|lia].
  - apply weaken_fits. eapply binary_runs; [exact Ag|exact W|]. intros xl xr R Fl Frr Fr Wx. destruct Fl as (Zl & Fl).
    eapply runs_bind; [apply (get_runs ss _ _ _ xl Wx); left; reflexivity|]. cbv beta. intros l s0 (-> & st & -> & _). cbn [l_size]. rewrite <- Zl in *.
    apply dmm_runs; auto. eapply well_less; [exact Wx|lia].
  - assert (Ag' : agrees (b :: a :: T) K) by (apply Ag; intros ->; cbn in H; intuition discriminate).
    apply weaken_fits. cbn [In] in H. destruct H as [<-|[<-|[<-|[<-|[<-|[]]]]]]; cbn [emit_ir];
    (eapply binary_runs; [exact Ag'|exact W|]; intros xl xr R Fl Frr Fr Wx; pose proof (kind_not_cond _ _ Frr) as Kr; destruct Fl as (Zl & Fl); destruct Frr as (Zr & _);
     eapply runs_bind; [apply (get_runs ss _ _ _ xl Wx); left; reflexivity|]; cbv beta; intros l s0 (-> & st & -> & _); cbn [l_size]; rewrite <- Zl in *;
     apply binary_op_runs; auto; [eapply well_less; [exact Wx|lia]|congruence]).
  - apply weaken_fits. eapply binary_runs; [exact Ag|exact W|]. intros xl xr R Fl Frr Fr Wx. destruct Fl as (<- & Fl). destruct Frr as (Zr & _ & Kr).
    apply shift_runs; auto; [eapply well_less; [exact Wx|lia]|]. intro X. rewrite Zr. apply H. rewrite Kr in X. destruct (snd b); [reflexivity|discriminate].
  - apply weaken_fits. eapply binary_runs; [exact Ag|exact W|]. intros xl xr R Fl Frr Fr Wx. destruct Fl as (<- & Fl). destruct Frr as (Zr & _ & Kr).
    apply shift_runs; auto; [eapply well_less; [exact Wx|lia]|]. intro X. rewrite Zr. apply H. rewrite Kr in X. destruct (snd b); [reflexivity|discriminate].
Qed.

Lemma static_kept : forall i T T', static i T T' -> kept (Some i) /\ is_jump i = false.
Proof. intros i T T' H. destruct H; try (split; [exact I|reflexivity]). cbn in H. destruct H as [<-|[<-|[<-|[<-|[<-|[]]]]]]; split; try exact I; reflexivity. Qed.

Lemma return_runs : forall n s t K, agrees [t] K -> well (n + 1) s K -> 0 <= n ->
  runs (emit_ir ss IR_return None (map iid K)) s (fun st s' => st = [] /\ well n s' []).
Proof.
  intros n s t K A W Hn. inversion A as [|? x ? R Ax AR]; subst. inversion AR; subst. cbn [map emit_ir].
  eapply runs_bind; [apply (load_into_runs ss _ n s [] x 0 (loads_bp_load ss) W Hn); [apply Ax|apply volatile_in|intros y []]|]. cbv beta. intros id s1 (W1 & _).
  eapply runs_bind; [apply (free_runs ss n s1 [] _ W1 eq_refl)|]. cbv beta. intros _ s2 (W2 & _). apply runs_ret. auto.
Qed.

Lemma irs_runs : forall is T t, statics is T [t] -> forall n s K, fits (Some (hd IR_return is)) T K ->
  well (n + 6 * Z.of_nat (length is) + 1) s K -> 0 <= n ->
  runs (emit_irs ss (is ++ [IR_return]) None (map iid K)) s (fun st s' => st = [] /\ well n s' [] /\ jumps s' = jumps s).
Proof.
  intros is T t H. remember [t] as T1 eqn:E. revert E. induction H as [T|i is T T1 T2 Hi H IH]; intros E n s K F W Hn; subst.
  - cbn [app emit_irs length Z.of_nat Z.mul Z.add] in *. assert (A : agrees [t] K) by (eapply to_agrees; [exact F|discriminate]).
    destruct (return_runs n s t K A) as (st & s1 & E1 & -> & W1); [replace (n + 0 + 1) with (n + 1) in W by lia; exact W|exact Hn|].
    exists [], s1. unfold bind. rewrite E1. cbn [obind]. split; [reflexivity|]. split; [reflexivity|]. split; [exact W1|].
    apply (q_jumps _ _ (quiet_ir ss IR_return None _ eq_refl _ _ _ E1)).
  - cbn [app emit_irs]. set (next := match is ++ [IR_return] with n :: _ => Some n | [] => None end).
    assert (En : next = Some (hd IR_return is)) by (unfold next; destruct is; reflexivity).
    destruct (static_kept _ _ _ Hi) as (_ & Ji).
    assert (Kn : kept next) by (rewrite En; destruct H as [|j js ? ? ? Hj _]; [exact I|apply (static_kept _ _ _ Hj)]).
    destruct (step_runs i next (n + 6 * Z.of_nat (length is) + 1) s T T1 K Hi F) as (st & s1 & E1 & K1 & -> & W1 & F1); [|lia|exact Kn|].
    { cbn [length] in W. replace (n + 6 * Z.of_nat (length is) + 1 + 6) with (n + 6 * Z.of_nat (S (length is)) + 1) by lia. exact W. }
    rewrite En in F1. destruct (IH eq_refl n s1 K1 F1 W1 Hn) as (st2 & s2 & E2 & -> & W2 & J2).
    exists [], s2. unfold bind. rewrite E1. cbn [obind]. split; [exact E2|]. split; [reflexivity|]. split; [exact W2|]. rewrite J2.
    apply (q_jumps _ _ (quiet_ir ss i next _ Ji _ _ _ E1)).
Qed.

Lemma well_initial : forall n, 0 <= n -> 0 <= ss -> ss + 16 * n <= 2147483648 -> well n initial [].
Proof.
  intros n Hn Hs Hb. split.
  - exists 0. split; [reflexivity|lia].
  - intros r id X. discriminate.
  - intros x [].
  - constructor.
  - unfold initial; cbn [tsa]. lia.
Qed.

Theorem function_runs : forall is t, statics is [] [t] -> 0 <= ss -> ss + 16 * (6 * Z.of_nat (length is) + 2) <= 2147483648 ->
  exists code temporaries, emit_function ss (is ++ [IR_return]) = Done (code, temporaries) /\ 0 <= temporaries <= 16 * (6 * Z.of_nat (length is) + 2).
Proof.
  intros is t H Hs Hb. remember (6 * Z.of_nat (length is) + 1) as L eqn:EL. remember ((2147483648 - ss) / 16) as N eqn:EN.
  assert (HN : 2147483648 - ss = 16 * N + (2147483648 - ss) mod 16) by (subst N; apply Z.div_mod; lia). assert (HM : 0 <= (2147483648 - ss) mod 16 < 16) by (apply Z.mod_pos_bound; lia).
  assert (HL : 0 <= N - L) by lia.
  destruct (irs_runs is [] t H (N - L) initial []) as (st & s' & E & -> & W & J); [left; constructor| |exact HL|].
  { apply well_initial; lia. }
  unfold emit_function. cbn [map] in E. rewrite E. cbn [obind].
  assert (X : forallb (fun r => match rmap s' r with None => true | Some _ => false end) volatile = true).
  { apply forallb_forall. intros r _. destruct (rmap s' r) as [id|] eqn:Er; [|reflexivity]. destruct (w_map _ _ _ _ W r id Er) as (_ & x & [] & _). }
  rewrite X, J. cbn [initial jumps patch_all obind]. exists (code s'), (tsa s'). split; [reflexivity|].
  pose proof (w_tsa _ _ _ _ W). lia.
Qed.
End Steps.
