(** C12: the layout of structs and unions. *)
From Coq Require Import Sorted.
From Verif Require Import Base UtilModel UtilSpec LayoutModel LayoutSpec LayoutProofs.

(** A struct is laid out by the rules of the ABI: the members are those the rules give, the
    alignment is the strictest one, the size the next multiple of it.  Missing for the full
    statement: unnamed bit-fields that open a unit (refuted below). *)
Theorem C12_struct_partial : forall packed pragma declspec items size align members,
  power_of_two pragma -> power_of_two declspec -> Forall proper items -> unnamed_fit None items -> declspec + needs items < 2 ^ 62 ->
  compound false packed pragma declspec items = Done (size, align, members) ->
  exists ps e, laid packed pragma 0 None items ps e /\ map strip members = flat_map contributes ps /\ strictest packed pragma declspec ps align /\ next_offset e align size.
Proof. intros pk pr d items sz al ms PR D F U B E. assert (G := struct_ok pk pr PR d items D F U B). rewrite E in G. exact G. Qed.
Print Assumptions C12_struct_partial.

(** So the declared members are in order and share no bit, lie inside the struct, are aligned,
    and the size is a multiple of the alignment. *)
Theorem C12_struct_sound_partial : forall packed pragma declspec items size align members,
  power_of_two pragma -> power_of_two declspec -> Forall proper items -> Forall plain_bits items -> unnamed_fit None items -> declspec + needs items < 2 ^ 62 ->
  compound false packed pragma declspec items = Done (size, align, members) ->
  (align | size) /\ exists ps, map strip members = flat_map contributes ps /\
    StronglySorted (fun p q => end_bit p <= first_bit q) ps /\
    Forall (fun p => 0 <= first_bit p /\ end_bit p <= 8 * size /\ forall a, aligned_as packed pragma (p_item p) a -> (a | p_offset p) /\ a <= align) ps.
Proof.
  intros pk pr d items sz al ms PR D F PB U B E. assert (G := struct_ok pk pr PR d items D F U B). rewrite E in G. destruct G as (ps & e & L & M & St & N). split; [exact (proj2 (proj1 N))|]. exists ps. split; [exact M|].
  destruct (laid_sorted pk pr PR _ _ _ _ _ L F) as (S1 & S2 & S3); [split; [lia|exact I]|]. split; [exact S1|]. assert (A := laid_aligned pk pr _ _ _ _ _ L PB I). rewrite Forall_forall in *. intros p P. destruct (S2 p P) as (Q1 & Q2 & Q3). cbn [start] in Q1.
  assert (e <= sz) by exact (proj1 (proj1 N)). split; [lia|]. split; [lia|]. intros a Al. split; [exact (A p P a Al)|exact (proj1 (proj2 St) p a P Al)].
Qed.
Print Assumptions C12_struct_sound_partial.

(** The members of a union are all at offset 0; its size is that of the largest, rounded up.
    Missing: bit-fields in unions (refuted below). *)
Theorem C12_union_partial : forall packed pragma declspec items size align members,
  power_of_two pragma -> power_of_two declspec -> Forall proper items -> Forall (fun it => i_width it = None) items -> declspec + needs items < 2 ^ 62 ->
  compound true packed pragma declspec items = Done (size, align, members) ->
  map strip members = flat_map contributes (map (fun it => mkplacement it 0 None) items) /\
  strictest packed pragma declspec (map (fun it => mkplacement it 0 None) items) align /\ next_offset (fold_right Z.max 0 (map i_size items)) align size.
Proof. intros pk pr d items sz al ms PR D F W B E. assert (G := union_ok pk pr PR d items D F W B). rewrite E in G. exact G. Qed.
Print Assumptions C12_union_partial.

(** Declarations without an error are accepted. *)
Theorem C12_struct_accepted_partial : forall packed pragma declspec items,
  power_of_two pragma -> power_of_two declspec -> Forall proper items -> unnamed_fit None items -> declspec + needs items < 2 ^ 62 ->
  Forall valid items -> NoDup (flat_map names_of items) -> exists r, compound false packed pragma declspec items = Done r.
Proof.
  intros pk pr d items PR D F U B V N. assert (G := struct_ok pk pr PR d items D F U B). assert (A := accepted false pk pr items (mklayout 0 d None 0 []) V N). unfold compound in *.
  destruct (declare_all false pk pr _ items) as [s| |]; cbn [obind] in *; [|congruence|destruct G]. destruct (_ || _); [destruct G|eexists; reflexivity].
Qed.
Print Assumptions C12_struct_accepted_partial.
Theorem C12_union_accepted_partial : forall packed pragma declspec items,
  power_of_two pragma -> power_of_two declspec -> Forall proper items -> Forall (fun it => i_width it = None) items -> declspec + needs items < 2 ^ 62 ->
  Forall valid items -> NoDup (flat_map names_of items) -> exists r, compound true packed pragma declspec items = Done r.
Proof.
  intros pk pr d items PR D F U B V N. assert (G := union_ok pk pr PR d items D F U B). assert (A := accepted true pk pr items (mklayout 0 d None 0 []) V N). unfold compound in *.
  destruct (declare_all true pk pr _ items) as [s| |]; cbn [obind] in *; [|congruence|destruct G]. destruct (_ || _); [destruct G|eexists; reflexivity].
Qed.
Print Assumptions C12_union_accepted_partial.

(** Errors are diagnosed: in what is accepted every declaration is valid and no name occurs
    twice. *)
Theorem C12_errors_diagnosed : forall is_union packed pragma declspec items size align members, Forall proper items ->
  compound is_union packed pragma declspec items = Done (size, align, members) -> Forall valid items /\ NoDup (flat_map (fun m => name_list (m_name m)) members).
Proof.
  intros u pk pr d items sz al ms F E. unfold compound in E. destruct (declare_all u pk pr (mklayout 0 d None 0 []) items) as [s| |] eqn:D; cbn [obind] in E; try discriminate.
  destruct (declare_checks _ _ _ _ _ _ F D ltac:(constructor)) as (N & V). destruct (_ || _) in E; [discriminate|]. injection E as _ _ <-. split; [exact V|exact N].
Qed.
Print Assumptions C12_errors_diagnosed.

(** struct { char a; int b : 5; int : 3; int c : 20; short d; struct { int x; char y; }; double e; } under #pragma pack(4). *)
Definition int_bits (n : option nat) (w : Z) : item := mkitem n 4 4 false 0 (Some w) true None.
Definition scalar_item (n : nat) (size : Z) : item := mkitem (Some n) size size false 0 None true None.
Definition xy : list member := [mkmember (Some 10%nat) 4 None 0 1; mkmember (Some 11%nat) 1 None 4 1].
Definition sample : list item :=
  [scalar_item 0 1; int_bits (Some 1%nat) 5; int_bits None 3; int_bits (Some 2%nat) 20; scalar_item 3 2;
   mkitem None 8 4 false 0 None false (Some (false, xy)); scalar_item 4 8].
Lemma pow2_4 : power_of_two 4. Proof. exists 2. split; [lia|reflexivity]. Qed.
Example C12_case : Forall proper sample /\ Forall plain_bits sample /\ unnamed_fit None sample /\ Forall valid sample /\ NoDup (flat_map names_of sample) /\ 1 + needs sample < 2 ^ 62 /\
  match compound false false 4 1 sample with
  | Done (size, align, ms) => size = 28 /\ align = 4 /\ map (fun m => (m_offset m, m_bits m)) ms = [(0, None); (4, Some (0, 5)); (4, Some (8, 20)); (8, None); (12, None); (12, None); (16, None); (20, None)]
  | _ => False
  end.
Proof.
  assert (power_of_two 1) by (exists 0; split; [lia|reflexivity]). assert (power_of_two 2) by (exists 1; split; [lia|reflexivity]). assert (power_of_two 8) by (exists 3; split; [lia|reflexivity]). assert (P4 := pow2_4).
  split; [repeat apply Forall_cons; try apply Forall_nil; (split; [cbn; lia|split; [assumption|left; reflexivity]])|].
  split; [repeat apply Forall_cons; try apply Forall_nil; intro W; try (cbn in W; congruence); repeat split|].
  split; [vm_compute; intuition discriminate|]. split; [repeat apply Forall_cons; try apply Forall_nil; cbn; try (left; discriminate); try (right; discriminate); (split; [reflexivity|split; [lia|discriminate]])|].
  split; [vm_compute; repeat constructor; cbn; intuition discriminate|]. split; [vm_compute; reflexivity|]. vm_compute. auto.
Qed.

(** struct { int a : 30; int : 4; int b : 4; }: the unnamed field opens a new unit, but b is put
    into the unit of a, over its bits 4 to 8. *)
Definition overlap (x y : member) : Prop :=
  match m_bits x, m_bits y with
  | Some (b, w), Some (c, v) => exists bit, 8 * m_offset x + b <= bit < 8 * m_offset x + b + w /\ 8 * m_offset y + c <= bit < 8 * m_offset y + c + v
  | _, _ => False
  end.
Theorem C12_unnamed_refuted : exists items size align x y, Forall proper items /\ Forall plain_bits items /\ Forall valid items /\
  compound false false 16 1 items = Done (size, align, [x; y]) /\ overlap x y.
Proof.
  exists [int_bits (Some 1%nat) 30; int_bits None 4; int_bits (Some 2%nat) 4], 4, 4, (mkmember (Some 1%nat) 4 (Some (0, 30)) 0 1), (mkmember (Some 2%nat) 4 (Some (4, 4)) 0 1). assert (P4 := pow2_4).
  split; [repeat apply Forall_cons; try apply Forall_nil; (split; [cbn; lia|split; [assumption|left; reflexivity]])|].
  split; [repeat apply Forall_cons; try apply Forall_nil; intro W; repeat split|]. split; [repeat apply Forall_cons; try apply Forall_nil; cbn; (split; [reflexivity|split; [lia|discriminate]])|].
  split; [vm_compute; reflexivity|]. exists 5. cbn. lia.
Qed.
Print Assumptions C12_unnamed_refuted.

(** struct { int x; int : 4; int a : 4; }: the compiler's own assertion fails. *)
Theorem C12_unnamed_crash_refuted : exists items, Forall proper items /\ Forall plain_bits items /\ Forall valid items /\ compound false false 16 1 items = Crash.
Proof.
  exists [scalar_item 1 4; int_bits None 4; int_bits (Some 2%nat) 4]. assert (P4 := pow2_4).
  split; [repeat apply Forall_cons; try apply Forall_nil; (split; [cbn; lia|split; [assumption|left; reflexivity]])|].
  split; [repeat apply Forall_cons; try apply Forall_nil; intro W; try (cbn in W; congruence); repeat split|]. split; [|vm_compute; reflexivity].
  repeat apply Forall_cons; try apply Forall_nil; cbn; try (left; discriminate); (split; [reflexivity|split; [lia|discriminate]]).
Qed.
Print Assumptions C12_unnamed_crash_refuted.

(** union { int a : 4; int b : 4; }: b does not start at bit 0. *)
Theorem C12_union_bits_refuted : exists items size align x y, Forall proper items /\ Forall plain_bits items /\ Forall valid items /\
  compound true false 16 1 items = Done (size, align, [x; y]) /\ m_bits y = Some (4, 4).
Proof.
  exists [int_bits (Some 1%nat) 4; int_bits (Some 2%nat) 4], 4, 4, (mkmember (Some 1%nat) 4 (Some (0, 4)) 0 1), (mkmember (Some 2%nat) 4 (Some (4, 4)) 0 1). assert (P4 := pow2_4).
  split; [repeat apply Forall_cons; try apply Forall_nil; (split; [cbn; lia|split; [assumption|left; reflexivity]])|].
  split; [repeat apply Forall_cons; try apply Forall_nil; intro W; repeat split|]. split; [repeat apply Forall_cons; try apply Forall_nil; cbn; (split; [reflexivity|split; [lia|discriminate]])|].
  split; vm_compute; reflexivity.
Qed.
Print Assumptions C12_union_bits_refuted.
