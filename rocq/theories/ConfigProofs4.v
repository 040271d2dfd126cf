(** Initialisation of the configuration. *)

From Coq Require Import String Ascii List Arith Bool ZArith Lia.
From Verif Require Import FileModel ConfigModel ConfigSpec ConfigProofs ConfigProofs2 ConfigProofs3.
Import ListNotations.
Local Open Scope list_scope.

Section Init.
Variable expand : str -> str.
Variable parse_size : str -> option Z.
Variable pid : Z.
Variable getenv : str -> option str.
Variable fs : str -> option str.
Notation find_config := (find_config expand parse_size pid getenv fs).
Notation initialize := (initialize expand parse_size pid getenv fs).
Notation load_config_file := (load_config_file expand parse_size pid).

Lemma find_path_find : find_path getenv fs = find (exist_file fs) (candidates getenv).
Proof.
  unfold find_path, candidates, opt.
  assert (A : forall h, L "./.stxxl" ++ L "." ++ h = L "./.stxxl." ++ h) by reflexivity.
  assert (B : forall d h, (d ++ L "/.stxxl") ++ L "." ++ h = d ++ L "/.stxxl." ++ h)
    by (intros; rewrite <- app_assoc; reflexivity).
  destruct (getenv (L "STXXLCFG")) as [cfg|], (getenv (L "HOSTNAME")) as [h|],
    (getenv (L "HOME")) as [d|]; rewrite ?A, ?B; cbn [app find];
  repeat match goal with
  | |- context[if exist_file fs ?p then _ else _] =>
      let E := fresh "E" in destruct (exist_file fs p) eqn:E
  end; reflexivity.
Qed.

Lemma find_first ps s : first_existing fs ps s ->
  exists p, find (exist_file fs) ps = Some p /\ fs p = Some s.
Proof.
  intros (b & p & a & -> & F & E). exists p. split; [|assumption].
  induction F as [|q b Hq F IH]; cbn.
  - unfold exist_file. rewrite E. reflexivity.
  - unfold exist_file at 1. rewrite Hq. apply IH.
Qed.

Lemma find_none ps : Forall (fun q => fs q = None) ps -> find (exist_file fs) ps = None.
Proof.
  induction 1 as [|q ps H F IH]; cbn; [reflexivity|].
  unfold exist_file at 1. rewrite H. apply IH.
Qed.

Lemma find_config_first c s :
  first_existing fs (candidates getenv) s -> find_config c = load_config_file c (Some s).
Proof.
  intros H. destruct (find_first _ _ H) as (p & E & Ep).
  unfold ConfigModel.find_config. rewrite find_path_find, E, Ep. reflexivity.
Qed.

Lemma find_config_none c :
  Forall (fun q => fs q = None) (candidates getenv) -> find_config c = load_default_config c.
Proof.
  intros H. unfold ConfigModel.find_config. rewrite find_path_find, find_none by assumption.
  reflexivity.
Qed.

(** What initialize does with the first configuration file. *)
Lemma initialize_file ff md s ls :
  first_existing fs (candidates getenv) s -> is_lines s ls ->
  initialize (new_config ff md) =
  match load_lines expand parse_size pid ls [] [] with
  | inr dl => (false, mkConfig dl 0 false md)
  | inl (dl, fl) =>
      if (length (dl ++ fl) =? 0)%nat
      then (false, mkConfig (dl ++ fl) (Z.of_nat (length dl) mod 2 ^ 32) false md)
      else (true, mkConfig (dl ++ fl) (Z.of_nat (length dl) mod 2 ^ 32) true 0)
  end.
Proof.
  intros H Hl. unfold ConfigModel.initialize, new_config. cbn [disks length Nat.eqb].
  rewrite (find_config_first _ _ H). unfold ConfigModel.load_config_file.
  rewrite (getlines_is_lines _ _ Hl). cbn [disks first_flash is_initialized max_dev].
  destruct (load_lines expand parse_size pid ls [] []) as [[dl fl]|dl]; [|reflexivity].
  destruct (length (dl ++ fl) =? 0)%nat; reflexivity.
Qed.

Lemma initialize_nonempty c : disks c <> [] ->
  initialize c = (true, mkConfig (disks c) 0 true 0).
Proof.
  intros H. unfold ConfigModel.initialize. cbn [disks].
  destruct (disks c); [congruence|]. reflexivity.
Qed.
End Init.

Lemma load_lines_app expand parse_size pid a b : forall dl fl,
  load_lines expand parse_size pid (a ++ b) dl fl =
  match load_lines expand parse_size pid a dl fl with
  | inl (dl', fl') => load_lines expand parse_size pid b dl' fl'
  | inr x => inr x
  end.
Proof.
  induction a as [|l a IH]; intros dl fl; cbn; [reflexivity|].
  destruct l as [|c l]; [apply IH|]. destruct (ascii_dec c "#"); [apply IH|].
  destruct (disk_of_line expand parse_size pid (c :: l)) as [e|]; [|reflexivity].
  destruct (flash e); apply IH.
Qed.

Lemma Forall2_len {X Y} (P : X -> Y -> Prop) a b : Forall2 P a b -> length a = length b.
Proof. induction 1; cbn; congruence. Qed.

Lemma sub_unique {X} (P : X -> Prop) l r r' : sub P l r -> sub P l r' -> r = r'.
Proof.
  intros A. revert r'. induction A; intros r' B; inversion B; subst;
    try contradiction; f_equal; auto.
Qed.

Lemma fold_add ds : forall c,
  disks (fold_left add_disk ds c) = disks c ++ ds /\
  is_initialized (fold_left add_disk ds c) = is_initialized c.
Proof.
  induction ds as [|d ds IH]; intros c; cbn.
  - rewrite app_nil_r. auto.
  - destruct (IH (add_disk c d)) as (-> & ->). cbn. rewrite <- app_assoc. auto.
Qed.

Lemma part_all {X} (a b : list X) :
  part (a ++ b) 0 (Z.of_nat (length a)) = a /\
  part (a ++ b) (Z.of_nat (length a)) (Z.of_nat (length (a ++ b))) = b.
Proof.
  unfold part. rewrite !Nat2Z.id. change (Z.to_nat 0) with 0%nat. rewrite Nat.sub_0_r. cbn [skipn].
  rewrite firstn_app, Nat.sub_diag, firstn_O, app_nil_r, firstn_all. split; [reflexivity|].
  rewrite skipn_app, Nat.sub_diag, skipn_all, app_length. cbn [app skipn].
  replace (length a + length b - length a)%nat with (length b) by lia. apply firstn_all.
Qed.

Lemma total_sum ds : forall t, (0 <= t)%Z -> Forall (fun d => 0 <= size d)%Z ds ->
  (fold_right (fun d a => size d + a) t ds < 2 ^ 64)%Z ->
  fold_left (fun t d => ((t + size d) mod 2 ^ 64)%Z) ds t =
  fold_right (fun d a => size d + a)%Z t ds.
Proof.
  induction ds as [|d ds IH]; intros t Ht F Hb; cbn in *; [reflexivity|].
  inversion F; subst.
  assert (E : forall u v l, (fold_right (fun d a => size d + a) (u + v) l =
                             fold_right (fun d a => size d + a) u l + v)%Z).
  { clear. intros u v l. induction l; cbn; lia. }
  assert (P : forall l, Forall (fun d => 0 <= size d)%Z l ->
              (t <= fold_right (fun d a => size d + a) t l)%Z).
  { clear. induction 1; cbn; lia. }
  specialize (P ds H2).
  rewrite (Z.mod_small (t + size d)) by lia.
  rewrite IH; [rewrite E; lia|lia|assumption|rewrite E; lia].
Qed.

(** ** The path in a line *)

(** "$$" does not occur in the text. *)
Definition no_dollars (s : str) : Prop := forall a b, s <> a ++ L "$$" ++ b.

Lemma replace_pid_first pid a b :
  no_dollars (a ++ L "$") -> replace_pid pid (a ++ L "$$" ++ b) = a ++ print_int pid ++ skipn 1 b.
Proof.
  induction a as [|c a IH]; intros N.
  - reflexivity.
  - assert (N' : no_dollars (a ++ L "$")).
    { intros x y E. apply (N (c :: x) y). cbn [app]. rewrite E. reflexivity. }
    specialize (IH N'). cbn [app replace_pid].
    destruct (a ++ L "$$" ++ b) as [|c' r] eqn:E; [destruct a; discriminate|].
    assert (K : ~ (c = "$"%char /\ c' = "$"%char)).
    { intros (-> & ->). destruct a as [|c0 a].
      - apply (N [] []). reflexivity.
      - injection E as -> E. apply (N [] (a ++ L "$")). reflexivity. }
    destruct (ascii_dec c "$") as [e|n]; [destruct (ascii_dec c' "$"); [tauto|]|];
      rewrite IH; reflexivity.
Qed.

Lemma replace_pid_none pid s : no_dollars s -> replace_pid pid s = s.
Proof.
  induction s as [|c s IH]; intros N; [reflexivity|].
  assert (N' : no_dollars s).
  { intros x y E. apply (N (c :: x) y). rewrite E. reflexivity. }
  specialize (IH N'). cbn [replace_pid]. destruct s as [|c' r]; [reflexivity|].
  destruct (ascii_dec c "$") as [->|n]; [destruct (ascii_dec c' "$") as [->|n]|].
  - exfalso. apply (N [] r). reflexivity.
  - rewrite IH. reflexivity.
  - rewrite IH. reflexivity.
Qed.

Lemma split3_eq sep a b r :
  ~ In sep a -> ~ In sep b -> split_min sep (a ++ sep :: b ++ sep :: r) 3 3 = [a; b; r].
Proof.
  intros Ha Hb. unfold split_min. rewrite split_go_sep by (auto; cbn; lia).
  cbn [option_map app]. rewrite split_go_sep by (auto; cbn; lia).
  cbn [option_map app]. change (3 - 1 - 1)%nat with 1%nat. rewrite split_go_last. reflexivity.
Qed.

(** Automatic ids count up. *)
Lemma assign_automatic n : forall c, (0 <= max_dev c)%Z -> (max_dev c + Z.of_nat n < 2 ^ 32)%Z ->
  fst (assign_all c (repeat DEFAULT_DEVICE_ID n)) =
  map (fun k => max_dev c + Z.of_nat k)%Z (List.seq 0 n).
Proof.
  induction n as [|n IH]; intros c H0 Hb; [reflexivity|].
  cbn [repeat assign_all]. unfold assign_device_id. rewrite Z.eqb_refl.
  unfold next_device_id.
  set (c1 := mkConfig (disks c) (first_flash c) (is_initialized c) ((max_dev c + 1) mod 2 ^ 32)).
  assert (M : max_dev c1 = (max_dev c + 1)%Z)
    by (cbn; rewrite Z.mod_small by lia; reflexivity).
  specialize (IH c1 ltac:(lia) ltac:(lia)).
  destruct (assign_all c1 (repeat DEFAULT_DEVICE_ID n)) as [ids c2]. cbn [fst] in *.
  subst ids. cbn [List.seq map]. f_equal; [lia|].
  rewrite <- seq_shift, map_map. apply map_ext. intros k. rewrite M. lia.
Qed.
