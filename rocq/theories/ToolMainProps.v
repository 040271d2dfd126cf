(** C113: foxxll_tool and library versions. *)

From Coq Require Import ZArith String List Bool Lia.
From Verif Require Import WriterProofs ToolMainModel.
Import ListNotations.
Local Open Scope string_scope.

Lemma find_tool_spec : forall l i name r, NoDup (map st_name l) ->
  (find_tool i l name = Some r <-> exists k t, r = (i + k)%nat /\ nth_error l k = Some t /\ st_name t = name).
Proof.
  induction l as [|t l IH]; intros i name r N; cbn [find_tool].
  - split; [discriminate|]. intros ([|k] & t & _ & H & _); discriminate.
  - cbn in N. inversion N as [|? ? N1 N2]; subst. destruct (String.eqb_spec (st_name t) name) as [E|E].
    + split.
      * intros H. inversion H; subst. exists 0%nat, t. csplit; auto.
      * intros ([|k] & t' & -> & H & E'); cbn in H; [f_equal; lia|]. exfalso. apply N1. rewrite E, <- E'.
        apply in_map. eapply nth_error_In; eauto.
    + rewrite IH; auto. split; intros (k & t' & -> & H & E').
      * exists (S k), t'. csplit; auto. lia.
      * destruct k as [|k]; cbn in H; [inversion H; subst; congruence|]. exists k, t'. csplit; auto. lia.
Qed.

Lemma names_differ : NoDup (map st_name subtools).
Proof. cbn. repeat constructor; cbn; intuition discriminate. Qed.

(** The subtool whose name is the first argument is run, once, with the rest of the arguments,
    and main() returns what it returns. *)
Theorem C113_dispatch : forall func argv i args r,
  tool_main func argv = Ran i args r <->
  exists a0 t rest, argv = a0 :: st_name t :: rest /\ nth_error subtools i = Some t /\
    args = progsub a0 (st_name t) :: rest /\ r = func i args.
Proof.
  intros func argv i args r. unfold tool_main. destruct argv as [|a0 [|a1 rest]].
  - split; [discriminate|]. intros (a0 & t & rest & H & _). discriminate.
  - split; [discriminate|]. intros (x & t & rest & H & _). discriminate.
  - pose proof (find_tool_spec subtools 0 a1) as F. destruct (find_tool 0 subtools a1) as [j|] eqn:E.
    + destruct (proj1 (F j names_differ) eq_refl) as (k & t & -> & Hk & Ht). cbn [plus]. split.
      * intros H. inversion H; subst. exists a0, t, rest. csplit; auto.
      * intros (x & t' & rest' & H1 & H2 & H3 & H4). inversion H1; subst.
        assert (G : Some (0 + k)%nat = Some i) by (apply (proj2 (F i names_differ)); exists i, t'; csplit; auto).
        inversion G; subst. auto.
    + split; [discriminate|]. intros (x & t' & rest' & H1 & H2 & H3 & H4). inversion H1; subst.
      assert (G : @None nat = Some i) by (apply (proj2 (F i names_differ)); exists i, t'; csplit; auto). discriminate.
Qed.
Print Assumptions C113_dispatch.

(** Otherwise the usage with the names of all subtools is printed. *)
Theorem C113_usage : forall func argv, argv <> [] ->
  (forall a0 t rest, argv = a0 :: st_name t :: rest -> ~ In t subtools) ->
  exists u, tool_main func argv = Usage u listed 0 /\
    (u = match argv with _ :: a1 :: _ => Some a1 | _ => None end) /\
    (forall t, In t subtools -> In (st_name t) listed) /\ NoDup listed.
Proof.
  intros func argv NE H. assert (L : (forall t, In t subtools -> In (st_name t) listed) /\ NoDup listed).
  { split.
    - intros t Ht. unfold listed. apply in_or_app. destruct (st_short t) eqn:S; [right|left]; apply in_map; apply filter_In;
        rewrite S; auto.
    - apply names_differ. }
  destruct argv as [|a0 [|a1 rest]]; [congruence|exists None; cbn; csplit; auto; apply L|].
  exists (Some a1). cbn [tool_main]. destruct (find_tool 0 subtools a1) as [j|] eqn:E.
  - apply (find_tool_spec _ _ _ _ names_differ) in E. destruct E as (k & t & _ & Hk & <-). exfalso.
    eapply H; [reflexivity|]. eapply nth_error_In; eauto.
  - csplit; auto; apply L.
Qed.
Print Assumptions C113_usage.

(** A call without a subtool, or with one that does not exist, is reported as a success. *)
Theorem C113_status_refuted :
  ~ (forall func argv r, (forall i args, tool_main func argv <> Ran i args r) -> 
       match tool_main func argv with Usage (Some _) _ c => c <> 0%Z | _ => True end).
Proof. intros H. apply (H (fun _ _ => 0%Z) ["tool"; "bench"] 0%Z); [discriminate|reflexivity]. Qed.
Print Assumptions C113_status_refuted.

Lemma length_append : forall a b, String.length (a ++ b) = (String.length a + String.length b)%nat.
Proof. induction a; cbn; auto. Qed.

Lemma substring_all : forall s n, (String.length s <= n)%nat -> substring 0 n s = s.
Proof. induction s as [|c s IH]; intros [|n] H; cbn in *; auto; try lia. f_equal. apply IH. lia. Qed.

Lemma substring_len : forall s n, String.length (substring 0 n s) = Nat.min n (String.length s).
Proof. induction s as [|c s IH]; intros [|n]; cbn; auto. Qed.

(** A subtool gets "program subtool" as its name, cut off after 255 bytes. *)
Theorem C113_name : forall a0 a1,
  (String.length (progsub a0 a1) <= 255)%nat /\
  ((String.length a0 + String.length a1 < 255)%nat -> progsub a0 a1 = a0 ++ " " ++ a1) /\
  prefix (progsub a0 a1) (a0 ++ " " ++ a1) = true.
Proof.
  intros a0 a1. unfold progsub. csplit.
  - rewrite substring_len. lia.
  - intros H. apply substring_all. rewrite !length_append. cbn. lia.
  - generalize (a0 ++ " " ++ a1). generalize 255%nat. intros n s. revert n.
    induction s as [|c s IH]; intros [|n]; cbn; auto. destruct (Ascii.ascii_dec c c); auto.
Qed.
Print Assumptions C113_name.

Theorem C113_name_refuted : ~ (forall a0 a1, progsub a0 a1 = a0 ++ " " ++ a1).
Proof.
  intros H. set (rep := fix rep n := match n with O => "" | S k => String (Ascii.ascii_of_nat 120) (rep k) end).
  specialize (H (rep 255%nat) "info"). apply (f_equal String.length) in H. vm_compute in H. discriminate.
Qed.
Print Assumptions C113_name_refuted.

Example C113_case : forall func, tool_main func ["foxxll_tool"; "benchmark_disks"; "8"; "write"] =
  Ran 2 ["foxxll_tool benchmark_disks"; "8"; "write"] (func 2%nat ["foxxll_tool benchmark_disks"; "8"; "write"]).
Proof. reflexivity. Qed.

(** check_library_version() tells the first component that differs. *)
Theorem C113_version : forall h l,
  (check_library_version h l = 0%Z <-> h = l) /\
  (check_library_version h l = 1%Z <-> v_major h <> v_major l) /\
  (check_library_version h l = 2%Z <-> v_major h = v_major l /\ v_minor h <> v_minor l) /\
  (check_library_version h l = 3%Z <-> v_major h = v_major l /\ v_minor h = v_minor l /\ v_patch h <> v_patch l).
Proof.
  intros [a b c] [a' b' c']. unfold check_library_version. cbn [v_major v_minor v_patch].
  destruct (Z.eqb_spec a' a), (Z.eqb_spec b' b), (Z.eqb_spec c' c); subst; cbn [negb]; csplit; split; intros H; try discriminate;
    try lia; try congruence; auto; try (inversion H; congruence).
Qed.
Print Assumptions C113_version.

(** The version number orders versions as long as minor and patch have two digits. *)
Theorem C113_integer : forall v w,
  (0 <= v_minor v < 100 -> 0 <= v_patch v < 100 -> 0 <= v_minor w < 100 -> 0 <= v_patch w < 100 ->
  (version_integer v < version_integer w <->
   v_major v < v_major w \/ v_major v = v_major w /\ (v_minor v < v_minor w \/ v_minor v = v_minor w /\ v_patch v < v_patch w)))%Z.
Proof. intros [a b c] [a' b' c']. unfold version_integer. cbn [v_major v_minor v_patch]. lia. Qed.
Print Assumptions C113_integer.

Example C113_integer_case : version_integer (MkV 1 4 99) = 10499%Z /\ check_library_version (MkV 1 4 99) (MkV 1 4 0) = 3%Z.
Proof. split; reflexivity. Qed.

Theorem C113_integer_refuted : ~ (forall v w, version_integer v = version_integer w -> v = w).
Proof. intros H. specialize (H (MkV 1 4 100) (MkV 1 5 0) eq_refl). discriminate. Qed.
Print Assumptions C113_integer_refuted.
