(** C09: the macro table is a map. *)
From Verif Require Import Base ScopeModel MacroTableModel MacroTableSpec MacroTableProofs DefineModel DefineSpec DefineProofs DefineProps.

(** The table itself, for any hash function and any type of definitions: whatever the
    history of directives, the lookups agree with the map of the specification, if
    definitions that are compared equal are equal. *)
Theorem C09_table_is_a_map : forall (def : Type) (same : def -> def -> bool) (hash : name -> Z) junk bs ds,
  (forall a b, same a b = true -> a = b) -> bs <> [] -> NoDup (map fst bs) ->
  exists t0, start def hash junk bs = Done t0 /\
  match after def (predefined def bs) ds with
  | Done m => exists t, run def same hash t0 ds = Done t /\ forall n, definition_of def hash t n = Done (option_map fst (m n))
  | Reported => run def same hash t0 ds = Reported
  | Crash => False
  end.
Proof.
  intros def same hash junk bs ds Se Ne Nd.
  destruct (macros_ok def same hash (fun _ => True) eq (fun d => eq_refl) (fun a b _ _ E => eq_sym (Se a b E)) junk bs ds Ne Nd) as (t0 & E & Q).
  { apply Forall_forall. intros [n d|n] _; exact I. }
  exists t0. split; [exact E|]. destruct (after def (predefined def bs) ds) as [m| |]; [|exact Q|exact Q]. destruct Q as (t & Et & Q). exists t. split; [exact Et|].
  intro n. destruct (Q n) as (o & Eo & Ro). rewrite Eo. destruct (m n) as [(d & b)|], o as [d'|]; try contradiction; [cbn; congruence|reflexivity].
Qed.
Print Assumptions C09_table_is_a_map.

(** The table with the comparison the code makes: definitions are texts. *)
Definition same_define (a redecl : list token) : bool :=
  match parse_define a, parse_define redecl with
  | Done d, Done r => match equivalent d r with Done true => true | _ => false end
  | _, _ => false
  end.
Definition plain_directive (x : directive (list token)) : Prop := match x with Define _ d => plain d | Undef _ => True end.

(** Full statement: without [Forall plain_directive ds].  Missing: redefinitions of macros
    with [#], [##] or a parameter [__VA_ARGS__] (C37); for these it is false, see below. *)
Theorem C09_lookup_is_the_last_definition_partial : forall (hash : name -> Z) junk bs ds,
  bs <> [] -> NoDup (map fst bs) -> Forall plain_directive ds ->
  exists t0, start (list token) hash junk bs = Done t0 /\
  match after (list token) (predefined _ bs) ds with
  | Done m => exists t, run _ same_define hash t0 ds = Done t /\
      forall n, exists o, definition_of _ hash t n = Done o /\
        match m n, o with None, None => True | Some (d, _), Some d' => same_text d' d | _, _ => False end
  | Reported => run _ same_define hash t0 ds = Reported
  | Crash => False
  end.
Proof.
  intros hash junk bs ds Ne Nd Fo. apply (macros_ok (list token) same_define hash plain same_text).
  - intro d. split; reflexivity.
  - intros a b Pa Pb E. unfold same_define in E. destruct (parse_define a) as [da| |] eqn:Ea; try discriminate. destruct (parse_define b) as [db| |] eqn:Eb; try discriminate.
    destruct (equivalent da db) as [[|]| |] eqn:Eq; try discriminate. apply (accepted_same b a db da Pb Pa Eb Ea Eq).
  - exact Ne.
  - exact Nd.
  - exact Fo.
Qed.
Print Assumptions C09_lookup_is_the_last_definition_partial.

(** [#define M(x, y) #x] and then [#define M(x, y) #y]: a lookup gives the first. *)
Definition M : name := [77].
Definition first_text := [Open; Ident x; Comma; sp; Ident y; Closed; sp; Hash; Ident x].
Definition second_text := [Open; Ident x; Comma; sp; Ident y; Closed; sp; Hash; Ident y].
Definition some_hash (n : name) : Z := hd 0 n.
Definition line : name := [95; 95; 76; 73; 78; 69; 95; 95].
Theorem C09_refuted : exists hash junk bs ds t0 t m d,
  bs <> [] /\ NoDup (map fst bs) /\ start (list token) hash junk bs = Done t0 /\ run _ same_define hash t0 ds = Done t /\
  after (list token) (predefined _ bs) ds = Done m /\ definition_of _ hash t M = Done (Some d) /\ option_map fst (m M) = Some second_text /\ ~ same_text d second_text.
Proof.
  exists some_hash, (mknode _ [] [] false None None), [(line, [])], [Define M first_text; Define M second_text].
  eexists. eexists. eexists. exists first_text. split; [discriminate|]. split; [constructor; [intros []|constructor]|].
  split; [vm_compute; reflexivity|]. split; [vm_compute; reflexivity|]. split; [vm_compute; reflexivity|]. split; [vm_compute; reflexivity|]. split; [vm_compute; reflexivity|].
  intros (_ & E). discriminate.
Qed.
Print Assumptions C09_refuted.

(** A history with colliding names, a redefinition and an [#undef]. *)
Example C09_case :
  let ds := [Define M sum1; Define x [Other [49]]; Define M sum3; Define y [Other [50]]; Undef x; Define M sum2] in
  Forall plain_directive ds /\
  match start (list token) (fun _ => 7) (mknode _ [] [] false None None) [(line, [])] with
  | Done t0 => match run _ same_define (fun _ => 7) t0 ds with
      | Done t => definition_of _ (fun _ => 7) t M = Done (Some sum2) /\ definition_of _ (fun _ => 7) t x = Done None /\ definition_of _ (fun _ => 7) t y = Done (Some [Other [50]])
      | _ => False end
  | _ => False
  end.
Proof.
  cbv zeta. split; [|vm_compute; auto].
  repeat (apply Forall_cons; [try exact I; try (split; [not_in|split; [not_in|let Q := fresh in intro Q; (discriminate Q || not_in)]])|]). apply Forall_nil.
Qed.
