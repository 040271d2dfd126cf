(** Properties C58-C60, C67, C68: the disk configuration. *)

From Coq Require Import String Ascii List Arith Bool ZArith Lia.
From Verif Require Import FileModel ConfigModel ConfigSpec ConfigProofs ConfigProofs2
  ConfigProofs3 ConfigProofs4.
Import ListNotations.
Local Open Scope list_scope.

(** ** C58: device ids *)

(** After a successful initialisation of the configuration, in any sequence of
    create_file with automatic and explicit device ids (whose numbers are so
    small that the 32 bit counter does not overflow): an explicit id is used as
    it is; an automatic id differs from all ids given to earlier files and is
    not the value that stands for "none"; max_device_id() is larger than all
    ids in use. *)
Theorem C58_automatic_ids_fresh :
  forall expand parse_size pid getenv fs c0 c reqs ids c',
  initialize expand parse_size pid getenv fs c0 = (true, c) ->
  (Z.of_nat (length reqs) < 2 ^ 32)%Z ->
  Forall (fun r => r = DEFAULT_DEVICE_ID \/
                   (0 <= r /\ r + 1 + Z.of_nat (length reqs) < 2 ^ 32)%Z) reqs ->
  assign_all c reqs = (ids, c') ->
  length ids = length reqs /\
  (forall k i, nth_error ids k = Some i ->
     (i < max_dev c')%Z /\ i <> DEFAULT_DEVICE_ID /\
     exists r, nth_error reqs k = Some r /\
       (r <> DEFAULT_DEVICE_ID -> i = r) /\
       (r = DEFAULT_DEVICE_ID ->
          forall j i', (j < k)%nat -> nth_error ids j = Some i' -> i' <> i)).
Proof.
  intros expand parse_size pid getenv fs c0 c reqs ids c' Hi Hb F H.
  assert (M : max_dev c = 0%Z).
  { unfold initialize in Hi.
    match type of Hi with (let '(_, _) := ?x in _) = _ => destruct x as [ok c2] end.
    destruct ok; [|discriminate]. injection Hi as <-. reflexivity. }
  pose proof (assign_spec reqs c (length reqs) ltac:(lia) ltac:(lia) ltac:(lia) F) as K.
  rewrite H in K. destruct K as (K1 & K2 & K3 & K4). split; [assumption|].
  intros k i E. rewrite Forall_forall in K3.
  pose proof (K3 _ (nth_error_In _ _ E)) as R. split; [lia|].
  destruct (K4 _ _ E) as (r & Er & Kr).
  assert (B : (max_dev c' < 2 ^ 32)%Z).
  { clear - H Hb F M.
    assert (G : forall rs c n is c', (length rs <= n)%nat -> (0 <= max_dev c)%Z ->
      (max_dev c + Z.of_nat n < 2 ^ 32)%Z ->
      Forall (fun r => r = DEFAULT_DEVICE_ID \/ (0 <= r /\ r + 1 + Z.of_nat n < 2 ^ 32)%Z) rs ->
      assign_all c rs = (is, c') -> (max_dev c' < 2 ^ 32)%Z).
    { clear. induction rs as [|r rs IH]; intros c n is c' Hn H0 Hm F H; cbn in H.
      - injection H as _ <-. lia.
      - cbn in Hn. inversion F as [|? ? Hr F']; subst.
        destruct (assign_device_id c r) as [i c1] eqn:E1.
        destruct (assign_all c1 rs) as [is2 c2] eqn:E2. injection H as _ <-.
        apply (IH c1 (n - 1)%nat is2); auto; try lia.
        + unfold assign_device_id, next_device_id, update_max_device_id in E1.
          destruct (r =? DEFAULT_DEVICE_ID)%Z; injection E1 as _ <-.
          * cbn. apply Z.mod_pos_bound. lia.
          * destruct (_ <? _)%Z; cbn; [apply Z.mod_pos_bound|]; lia.
        + unfold assign_device_id, next_device_id, update_max_device_id in E1.
          destruct (Z.eqb_spec r DEFAULT_DEVICE_ID); injection E1 as _ <-.
          * cbn. rewrite Z.mod_small by lia. lia.
          * destruct Hr as [?|Hr]; [contradiction|].
            rewrite Z.mod_small by lia. destruct (Z.ltb_spec (max_dev c) (r + 1)); cbn; lia.
        + eapply Forall_impl; [|exact F']. cbn. intros a [Q|Q]; [tauto|right]. lia. }
    eapply G; [| | | |exact H]; try eassumption; lia. }
  split; [unfold DEFAULT_DEVICE_ID; lia|].
  exists r. split; [assumption|]. destruct Kr as [(N & ->)|(-> & _ & Kr)].
  - split; [reflexivity|]. congruence.
  - split; [congruence|]. intros _ j i' Hj Ej. pose proof (Kr _ _ Hj Ej). lia.
Qed.
Print Assumptions C58_automatic_ids_fresh.

(** An explicit id may be one that an earlier file got automatically. *)
Theorem C58_explicit_may_coincide_refuted :
  forall c, max_dev c = 0%Z ->
  fst (assign_all c [DEFAULT_DEVICE_ID; 0%Z]) = [0%Z; 0%Z].
Proof. intros c H. cbn. rewrite H. reflexivity. Qed.
Print Assumptions C58_explicit_may_coincide_refuted.

(** Without the bound: after the explicit id 2^32 - 2 an automatic id is the
    value for "none" and the ids after it start again at 0. *)
Theorem C58_overflow_refuted :
  forall c, max_dev c = 0%Z ->
  fst (assign_all c [DEFAULT_DEVICE_ID; (2 ^ 32 - 2)%Z; DEFAULT_DEVICE_ID; DEFAULT_DEVICE_ID]) =
  [0%Z; (2 ^ 32 - 2)%Z; DEFAULT_DEVICE_ID; 0%Z].
Proof.
  intros c H. cbn [assign_all]. unfold assign_device_id at 1, next_device_id. cbn. rewrite H.
  reflexivity.
Qed.
Print Assumptions C58_overflow_refuted.

(** Before the initialisation the counter is not initialised: whatever id v a
    file gets then, the initialisation sets the counter to 0 and a later file
    gets the same id. *)
Theorem C58_before_initialisation_refuted :
  forall expand parse_size pid getenv fs v c0 i c1 c2,
  (0 <= v < 2 ^ 32 - 1)%Z -> max_dev c0 = v -> is_initialized c0 = false ->
  assign_device_id c0 DEFAULT_DEVICE_ID = (i, c1) ->
  check_initialized expand parse_size pid getenv fs c1 = (true, c2) ->
  exists n, In i (fst (assign_all c2 (repeat DEFAULT_DEVICE_ID n))).
Proof.
  intros expand parse_size pid getenv fs v c0 i c1 c2 Hv E0 N H1 H2.
  unfold assign_device_id, next_device_id in H1. rewrite Z.eqb_refl in H1.
  injection H1 as <- <-. unfold check_initialized in H2. cbn [is_initialized] in H2.
  rewrite N in H2.
  assert (M : max_dev c2 = 0%Z).
  { unfold initialize in H2.
    match type of H2 with (let '(_, _) := ?x in _) = _ => destruct x as [ok c3] end.
    destruct ok; [|discriminate]. injection H2 as <-. reflexivity. }
  exists (S (Z.to_nat v)). rewrite assign_automatic by lia.
  apply in_map_iff. exists (Z.to_nat v). split; [lia|]. apply in_seq. lia.
Qed.
Print Assumptions C58_before_initialisation_refuted.

(** Three disks with automatic ids and one with the id 7 in between. *)
Example C58_case :
  let D := DEFAULT_DEVICE_ID in
  let '(ok, c) := initialize (fun s => s) (fun _ => Some 0%Z) 1 (fun _ => None) (fun _ => None)
                    (new_config 77 99) in
  ok = true /\ fst (assign_all c [D; 7%Z; D; D]) = [0; 7; 8; 9]%Z /\
  max_dev (snd (assign_all c [D; 7%Z; D; D])) = 10%Z.
Proof. vm_compute. auto. Qed.

(** ** C59: disk ranges *)

(** A successful initialisation from a configuration file: every line is blank,
    a comment or an accepted entry; the regular range contains exactly the disks
    of the lines that begin with disk=, in file order, the flash range those of
    the lines that begin with flash=, and nothing else is in the list. *)
Theorem C59_ranges :
  forall expand parse_size pid getenv fs ff md s ls c,
  first_existing fs (candidates getenv) s -> is_lines s ls ->
  initialize expand parse_size pid getenv fs (new_config ff md) = (true, c) ->
  (Z.of_nat (length (disks c)) < 2 ^ 32)%Z ->
  let entry l d := disk_of_line expand parse_size pid l = Some d in
  Forall (fun l => blank_or_comment l \/ exists d, entry l d) ls /\
  exists dls fls n,
    sub (starts (L "disk=")) ls dls /\ sub (starts (L "flash=")) ls fls /\
    regular_disk_range c = Some (0%Z, n) /\
    flash_range c = Some (n, Z.of_nat (length (disks c))) /\
    (0 <= n <= Z.of_nat (length (disks c)))%Z /\
    Forall2 (fun l d => entry l d /\ flash d = false) dls (part (disks c) 0 n) /\
    Forall2 (fun l d => entry l d /\ flash d = true) fls
            (part (disks c) n (Z.of_nat (length (disks c)))).
Proof.
  intros expand parse_size pid getenv fs ff md s ls c H Hl Hi Hb entry.
  rewrite (initialize_file _ _ _ _ _ _ _ _ _ H Hl) in Hi.
  destruct (load_lines expand parse_size pid ls [] []) as [[dl fl]|dl] eqn:E; [|discriminate].
  destruct (length (dl ++ fl) =? 0)%nat; [discriminate|]. injection Hi as <-.
  destruct (load_lines_ok _ _ _ _ _ _ _ _ E)
    as (l1 & l2 & ds & fs' & A1 & A2 & A3 & A4 & A5 & A6 & A7).
  cbn [app] in A5, A6. subst dl fl. cbn [disks] in *. split; [assumption|].
  exists l1, l2, (Z.of_nat (length ds)).
  unfold regular_disk_range, flash_range. cbn [disks is_initialized first_flash].
  rewrite app_length in *. rewrite !Z.mod_small by lia.
  destruct (part_all ds fs') as (P1 & P2). rewrite app_length in P2. rewrite P1, P2.
  split; [assumption|]. split; [assumption|]. split; [reflexivity|]. split; [reflexivity|].
  split; [lia|]. split; assumption.
Qed.
Print Assumptions C59_ranges.

(** The initialisation succeeds exactly if every line is blank, a comment or an
    accepted entry and there is at least one entry. *)
Theorem C59_loads_iff :
  forall expand parse_size pid getenv fs ff md s ls,
  first_existing fs (candidates getenv) s -> is_lines s ls ->
  let entry l d := disk_of_line expand parse_size pid l = Some d in
  (fst (initialize expand parse_size pid getenv fs (new_config ff md)) = true <->
   Forall (fun l => blank_or_comment l \/ exists d, entry l d) ls /\
   Exists (fun l => exists d, entry l d) ls).
Proof.
  intros expand parse_size pid getenv fs ff md s ls H Hl entry.
  rewrite (initialize_file _ _ _ _ _ _ _ _ _ H Hl).
  assert (X : forall k r, sub (starts k) ls r -> forall x, In x r -> In x ls /\ starts k x).
  { clear. induction 1; cbn; intros y Hy; [tauto| |].
    - destruct Hy as [<-|Hy]; [tauto|]. destruct (IHsub _ Hy). tauto.
    - destruct (IHsub _ Hy). tauto. }
  assert (Y : forall k r, sub (starts k) ls r -> forall x, In x ls -> starts k x -> In x r).
  { clear. induction 1; cbn; intros y Hy S0; [tauto| |].
    - destruct Hy as [<-|Hy]; [tauto|right; auto].
    - destruct Hy as [<-|Hy]; [contradiction|auto]. }
  split.
  - intros Hi. destruct (load_lines expand parse_size pid ls [] []) as [[dl fl]|dl] eqn:E;
      [|discriminate].
    destruct (Nat.eqb_spec (length (dl ++ fl)) 0) as [|N]; [discriminate|].
    destruct (load_lines_ok _ _ _ _ _ _ _ _ E)
      as (l1 & l2 & ds & fs' & A1 & A2 & A3 & A4 & A5 & A6 & A7).
    cbn [app] in A5, A6. subst dl fl. split; [assumption|]. apply Exists_exists.
    destruct A3 as [|l d l1 ds (Q & _) A3].
    + destruct A4 as [|l d l2 fs' (Q & _) A4]; [cbn in N; lia|].
      exists l. split; [|exists d; exact Q]. apply (X _ _ A2). left; reflexivity.
    + exists l. split; [|exists d; exact Q]. apply (X _ _ A1). left; reflexivity.
  - intros (F & Ex). destruct (load_lines_succeeds _ _ _ ls [] [] F) as (dl & fl & E).
    rewrite E. destruct (load_lines_ok _ _ _ _ _ _ _ _ E)
      as (l1 & l2 & ds & fs' & A1 & A2 & A3 & A4 & A5 & A6 & _).
    cbn [app] in A5, A6. subst dl fl.
    apply Exists_exists in Ex. destruct Ex as (l & Il & d & Q).
    assert (N : length (ds ++ fs') <> 0%nat).
    { rewrite app_length.
      rewrite <- (Forall2_len _ _ _ A3), <- (Forall2_len _ _ _ A4).
      destruct (disk_of_line_kind _ _ _ _ _ Q) as [(_ & S0)|(_ & S0)].
      - pose proof (Y _ _ A1 _ Il S0). destruct l1; [contradiction|cbn; lia].
      - pose proof (Y _ _ A2 _ Il S0). destruct l2; [contradiction|cbn; lia]. }
    destruct (Nat.eqb_spec (length (ds ++ fs')) 0); [contradiction|reflexivity].
Qed.
Print Assumptions C59_loads_iff.

(** Disks added with add_disk before the initialisation: all of them are
    reported as flash disks, whatever they are. *)
Theorem C59_added_disks_are_flash :
  forall expand parse_size pid getenv fs ff md ds,
  ds <> [] -> (Z.of_nat (length ds) < 2 ^ 32)%Z ->
  exists c,
    initialize expand parse_size pid getenv fs (fold_left add_disk ds (new_config ff md))
      = (true, c) /\
    disks c = ds /\
    regular_disk_range c = Some (0, 0)%Z /\
    flash_range c = Some (0%Z, Z.of_nat (length ds)).
Proof.
  intros expand parse_size pid getenv fs ff md ds N Hb.
  destruct (fold_add ds (new_config ff md)) as (E & _). cbn [disks new_config app] in E.
  eexists. split; [apply initialize_nonempty; rewrite E; assumption|].
  cbn [disks]. rewrite E. split; [reflexivity|]. split; [reflexivity|].
  unfold flash_range. cbn [disks is_initialized first_flash].
  rewrite ?E, Z.mod_small by lia. reflexivity.
Qed.
Print Assumptions C59_added_disks_are_flash.

(** The same for load_config_file called before the initialisation. *)
Theorem C59_file_loaded_before_initialisation_refuted :
  forall expand parse_size pid getenv fs ff md s c,
  load_config_file expand parse_size pid (new_config ff md) (Some s) = (true, c) ->
  exists c', initialize expand parse_size pid getenv fs c = (true, c') /\
    disks c' = disks c /\ regular_disk_range c' = Some (0, 0)%Z.
Proof.
  intros expand parse_size pid getenv fs ff md s c H.
  unfold load_config_file in H.
  destruct (load_lines expand parse_size pid (getlines [] s) (disks (new_config ff md)) [])
    as [[dl fl]|dl]; [|discriminate].
  injection H as H <-.
  eexists. split; [apply initialize_nonempty|split; reflexivity].
  cbn [disks]. destruct (dl ++ fl); [discriminate|congruence].
Qed.
Print Assumptions C59_file_loaded_before_initialisation_refuted.

(** A bad line makes the initialisation fail, but the disk= entries in front of
    it stay in the list: if there are any, the next call of check_initialized()
    succeeds with these disks only, and reports them as flash. *)
Theorem C59_second_attempt_refuted :
  forall expand parse_size pid getenv fs ff md s ls before bad after dls d ds,
  first_existing fs (candidates getenv) s -> is_lines s ls ->
  ls = before ++ bad :: after -> ~ blank_or_comment bad ->
  let entry l d := disk_of_line expand parse_size pid l = Some d in
  (forall d, ~ entry bad d) ->
  Forall (fun l => blank_or_comment l \/ exists d, entry l d) before ->
  sub (starts (L "disk=")) before dls -> Forall2 entry dls (d :: ds) ->
  exists c1 c2,
    check_initialized expand parse_size pid getenv fs (new_config ff md) = (false, c1) /\
    check_initialized expand parse_size pid getenv fs c1 = (true, c2) /\
    disks c2 = d :: ds /\ regular_disk_range c2 = Some (0, 0)%Z.
Proof.
  intros expand parse_size pid getenv fs ff md s ls before bad after dls d ds
    H Hl -> Nb entry Hbad Hbef Sub F2.
  unfold check_initialized at 1. cbn [is_initialized new_config].
  change (mkConfig [] ff false md) with (new_config ff md).
  rewrite (initialize_file _ _ _ _ _ _ _ _ _ H Hl).
  rewrite load_lines_app.
  destruct (load_lines_succeeds _ _ _ before [] [] Hbef) as (dl & fl & E). rewrite E.
  destruct (load_lines_ok _ _ _ _ _ _ _ _ E)
      as (l1 & l2 & ds' & fs' & A1 & _ & A3 & _ & A5 & _ & _).
  cbn [app] in A5. subst dl. rewrite (sub_unique _ _ _ _ A1 Sub) in A3.
  assert (Ed : ds' = d :: ds).
  { clear - A3 F2. revert ds' A3. generalize dependent (d :: ds).
    induction dls as [|x r IH]; intros a F2 b A3; inversion F2; inversion A3; subst;
      [reflexivity|].
    f_equal; [|eauto]. unfold entry in *. destruct H6. congruence. }
  subst ds'.
  assert (B : load_lines expand parse_size pid (bad :: after) (d :: ds) fl = inr (d :: ds)).
  { cbn. destruct bad as [|c r]; [exfalso; apply Nb; left; reflexivity|].
    destruct (ascii_dec c "#") as [->|]; [exfalso; apply Nb; right; exists r; reflexivity|].
    destruct (disk_of_line expand parse_size pid (c :: r)) as [e|] eqn:Ee; [|reflexivity].
    exfalso; exact (Hbad _ Ee). }
  rewrite B. eexists. eexists. split; [reflexivity|].
  unfold check_initialized. cbn [is_initialized].
  split; [apply initialize_nonempty; discriminate|]. split; reflexivity.
Qed.
Print Assumptions C59_second_attempt_refuted.

(** add_disk after the initialisation: the boundary between the ranges moves
    although the new disk is put at the end. If there are flash disks, the new
    disk is reported as flash and the first flash disk as regular. *)
Theorem C59_add_disk_after_initialisation_refuted :
  forall c d n m f rest,
  regular_disk_range c = Some (0%Z, n) -> flash_range c = Some (n, m) ->
  (0 <= n)%Z -> (Z.of_nat (length (disks c)) + 1 < 2 ^ 32)%Z ->
  part (disks c) n m = f :: rest ->
  regular_disk_range (add_disk c d) = Some (0, n + 1)%Z /\
  part (disks (add_disk c d)) 0 (n + 1) = part (disks c) 0 n ++ [f] /\
  flash_range (add_disk c d) = Some (n + 1, m + 1)%Z /\
  part (disks (add_disk c d)) (n + 1) (m + 1) = rest ++ [d].
Proof.
  intros c d n m f rest Hr Hf Hn Hb Hp.
  unfold regular_disk_range, flash_range in *. cbn [add_disk is_initialized first_flash disks].
  destruct (is_initialized c); [|discriminate].
  injection Hr as Hr. injection Hf as _ Hm. rewrite Z.mod_small in Hm by lia.
  rewrite Hr, app_length. cbn [length].
  set (l := disks c) in *.
  assert (Hl : exists a, l = a ++ f :: rest /\ Z.to_nat n = length a).
  { unfold part in Hp. subst m. rewrite Nat2Z.id in Hp.
    rewrite firstn_all2 in Hp by (rewrite skipn_length; lia).
    exists (firstn (Z.to_nat n) l). rewrite <- Hp, firstn_skipn. split; [reflexivity|].
    rewrite firstn_length. apply (f_equal (@length _)) in Hp. rewrite skipn_length in Hp.
    cbn in Hp. lia. }
  destruct Hl as (a & El & Ea). subst m. rewrite El in *. rewrite app_length in *.
  cbn [length] in *. assert (En : n = Z.of_nat (length a)) by lia. clear Ea Hr Hp. subst n.
  rewrite !Z.mod_small by lia.
  assert (E2 : (a ++ f :: rest) ++ [d] = (a ++ [f]) ++ (rest ++ [d]))
    by (rewrite <- !app_assoc; reflexivity).
  rewrite E2. clear E2.
  destruct (part_all (a ++ [f]) (rest ++ [d])) as (P1 & P2).
  destruct (part_all a (f :: rest)) as (P3 & _).
  rewrite !app_length in *. cbn [length] in *.
  replace (Z.of_nat (length a + 1)) with (Z.of_nat (length a) + 1)%Z in * by lia.
  replace (Z.of_nat (length a + 1 + (length rest + 1)))
    with (Z.of_nat (length a + S (length rest)) + 1)%Z in P2 by lia.
  split; [reflexivity|]. split; [rewrite P1, P3; reflexivity|].
  split; [do 2 f_equal; lia|]. exact P2.
Qed.
Print Assumptions C59_add_disk_after_initialisation_refuted.

(** Without any configuration file there is one regular disk. *)
Theorem C59_default :
  forall expand parse_size pid getenv fs ff md,
  Forall (fun q => fs q = None) (candidates getenv) ->
  exists c d,
    initialize expand parse_size pid getenv fs (new_config ff md) = (true, c) /\
    disks c = [d] /\ path d = L "/var/tmp/foxxll" /\ size d = (1000 * 1024 * 1024)%Z /\
    io_impl d = L "syscall" /\ autogrow d = true /\ delete_on_exit d = true /\
    flash d = false /\
    regular_disk_range c = Some (0, 1)%Z /\ flash_range c = Some (1, 1)%Z /\
    total_size c = Some (1000 * 1024 * 1024)%Z.
Proof.
  intros expand parse_size pid getenv fs ff md H.
  assert (E : initialize expand parse_size pid getenv fs (new_config ff md) =
    let '(ok, c2) := load_default_config (mkConfig [] 0 false md) in
    if ok then (true, mkConfig (disks c2) (first_flash c2) true 0) else (false, c2)).
  { unfold initialize. cbn [new_config disks length Nat.eqb is_initialized max_dev].
    rewrite find_config_none by assumption. reflexivity. }
  rewrite E. eexists. eexists. split; [vm_compute; reflexivity|].
  vm_compute. repeat split.
Qed.
Print Assumptions C59_default.

(** total_size() is the sum of the sizes, if that is less than 2^64. *)
Theorem C59_total_size :
  forall c, is_initialized c = true ->
  Forall (fun d => 0 <= size d)%Z (disks c) ->
  (fold_right (fun d a => size d + a) 0 (disks c) < 2 ^ 64)%Z ->
  total_size c = Some (fold_right (fun d a => size d + a)%Z 0%Z (disks c)).
Proof.
  intros c Hi F Hb. unfold total_size. rewrite Hi, total_sum by (auto; lia). reflexivity.
Qed.
Print Assumptions C59_total_size.

(** A file with comments, two disks and a flash disk between them. *)
Definition C59_text : str :=
  L "# my disks" ++ [newline] ++ L "disk=/a,100,syscall direct=on" ++ [newline] ++ [newline] ++
  L "flash=/f,200,memory" ++ [newline] ++ L "disk=/b,300,linuxaio queue_length=9".

Definition C59_size (s : str) : option Z :=
  if seq s (L "100") then Some 100%Z else if seq s (L "200") then Some 200%Z
  else if seq s (L "300") then Some 300%Z else None.

Definition C59_env (s : str) : option str :=
  if seq s (L "HOME") then Some (L "/home/me") else None.

Definition C59_fs (s : str) : option str :=
  if seq s (L "/home/me/.stxxl") then Some C59_text else None.

Example C59_case :
  first_existing C59_fs (candidates C59_env) C59_text /\
  is_lines C59_text [L "# my disks"; L "disk=/a,100,syscall direct=on"; []; L "flash=/f,200,memory";
     L "disk=/b,300,linuxaio queue_length=9"] /\
  let '(ok, c) := initialize (fun s => s) C59_size 1 C59_env C59_fs (new_config 5 6) in
  ok = true /\ map path (disks c) = [L "/a"; L "/b"; L "/f"] /\
  map flash (disks c) = [false; false; true] /\
  regular_disk_range c = Some (0, 2)%Z /\ flash_range c = Some (2, 3)%Z /\
  total_size c = Some 600%Z.
Proof.
  split; [|split].
  - exists [L "./.stxxl"], (L "/home/me/.stxxl"), []. split; [reflexivity|]. split; [|reflexivity].
    repeat constructor.
  - split; [repeat constructor; vm_compute; intuition discriminate|].
    right. eexists [_; _; _; _], _. split; [reflexivity|]. split; [discriminate|reflexivity].
  - vm_compute. repeat split.
Qed.

(** ** C60: options as text *)

(** Printing the options of a disk with fileio_string() and constructing a
    disk_config from the text gives the same configuration exactly if the
    options are expressible. *)
Theorem C60_roundtrip_iff :
  forall d, typed d ->
  (make_disk (path d) (size d) (fileio_string d) = Some d <-> expressible d).
Proof. exact roundtrip_iff. Qed.
Print Assumptions C60_roundtrip_iff.

(** Every configuration constructed by disk_config(path, size, fileio) is
    restored, unless it has the queue number -2. *)
Theorem C60_parsed_roundtrip :
  forall p sz text d,
  make_disk p sz text = Some d ->
  (make_disk p sz (fileio_string d) = Some d <-> queue d <> (-2)%Z).
Proof.
  intros p sz text d H.
  destruct (make_disk_parsed _ _ _ _ H) as ((T & P) & N & S0 & <- & <- & F).
  rewrite roundtrip_iff by assumption. unfold expressible. tauto.
Qed.
Print Assumptions C60_parsed_roundtrip.

(** For queue number -2 the text is accepted, but the number is lost. *)
Theorem C60_linuxaio_queue_refuted :
  forall p sz text d,
  make_disk p sz text = Some d -> queue d = (-2)%Z ->
  exists d', make_disk p sz (fileio_string d) = Some d' /\ queue d' = (-1)%Z /\
    set_queue d' (-2) = d.
Proof.
  intros p sz text d H Q.
  destruct (make_disk_parsed _ _ _ _ H) as ((T & P1 & P2 & P3 & P4) & N & S0 & <- & <- & F).
  rewrite parse_printed, parse_words by assumption.
  assert (E : reads_ok d = true).
  { unfold reads_ok. rewrite F, Q. cbn [negb andb orb Z.eqb].
    apply andb_true_intro; split; [apply andb_true_intro; split|].
    - destruct (raw_device d); [|reflexivity]. rewrite (P2 eq_refl). reflexivity.
    - destruct (unlink_on_open d); [|reflexivity].
      destruct (P3 eq_refl) as [->|[->| ->]]; reflexivity.
    - destruct (Z.eqb_spec (queue_length d) 0) as [e|n]; [reflexivity|].
      rewrite (P4 n). reflexivity. }
  rewrite E, Q. eexists. split; [reflexivity|]. split; [reflexivity|].
  destruct d; cbn in *; subst; reflexivity.
Qed.
Print Assumptions C60_linuxaio_queue_refuted.

(** The text of a flash disk is rejected. *)
Theorem C60_flash_rejected :
  forall p sz d, io_impl d <> [] -> ~ In " "%char (io_impl d) -> typed d ->
  flash d = true -> make_disk p sz (fileio_string d) = None.
Proof.
  intros p sz d N S0 T F. rewrite parse_printed by assumption.
  unfold words. rewrite parse_params_app, r_auto by reflexivity. cbv iota beta.
  rewrite parse_params_app, r_del by reflexivity. cbv iota beta.
  rewrite parse_params_app, r_dir by reflexivity. cbv iota beta.
  rewrite parse_params_app, r_flash, F. reflexivity.
Qed.
Print Assumptions C60_flash_rejected.

(** Text consisting of spaces only is not accepted. *)
Theorem C60_blank_rejected :
  forall p sz n, make_disk p sz (repeat " "%char n) = None.
Proof.
  intros p sz n. unfold make_disk, parse_fileio. cbn [fresh io_impl].
  replace (strip (repeat " "%char n)) with (@None (list ascii)); [reflexivity|].
  symmetry. induction n; [reflexivity|]. cbn. assumption.
Qed.
Print Assumptions C60_blank_rejected.

Example C60_case :
  let text := L "  syscall noautogrow  queue=-7 devid=+12 unlink direct=yes" in
  exists d, make_disk (L "/p") 5 text = Some d /\
    autogrow d = false /\ queue d = (-7)%Z /\ device_id d = 12%Z /\ unlink_on_open d = true /\
    fileio_string d = L "syscall autogrow=no direct=on queue=-7 devid=12 unlink_on_open" /\
    make_disk (L "/p") 5 (fileio_string d) = Some d.
Proof. intros text. eexists. split; [vm_compute; reflexivity|]. vm_compute. repeat split. Qed.

(** ** C67: which configuration file is used *)

(** The first of the five places where a file exists is used; if there is none,
    the default configuration. *)
Theorem C67_first_candidate :
  forall expand parse_size pid getenv fs c s,
  first_existing fs (candidates getenv) s ->
  find_config expand parse_size pid getenv fs c =
  load_config_file expand parse_size pid c (Some s).
Proof. intros. apply find_config_first. assumption. Qed.
Print Assumptions C67_first_candidate.

Theorem C67_default :
  forall expand parse_size pid getenv fs c,
  Forall (fun q => fs q = None) (candidates getenv) ->
  find_config expand parse_size pid getenv fs c = load_default_config c.
Proof. intros. apply find_config_none. assumption. Qed.
Print Assumptions C67_default.

(** One of the two cases always holds. *)
Theorem C67_complete :
  forall getenv (fs : str -> option str),
  (exists s, first_existing fs (candidates getenv) s) \/
  Forall (fun q => fs q = None) (candidates getenv).
Proof.
  intros getenv fs. induction (candidates getenv) as [|p ps IH]; [right; constructor|].
  destruct (fs p) as [s|] eqn:E.
  - left. exists s, [], p, ps. auto.
  - destruct IH as [(s & b & q & a & -> & F & Eq)|F].
    + left. exists s, (p :: b), q, a. auto.
    + right. constructor; assumption.
Qed.
Print Assumptions C67_complete.

(** Nothing is searched if disks have been added before. *)
Theorem C67_added_disks_win :
  forall expand parse_size pid getenv fs c,
  disks c <> [] ->
  exists c', initialize expand parse_size pid getenv fs c = (true, c') /\ disks c' = disks c.
Proof.
  intros. eexists. split; [apply initialize_nonempty; assumption|reflexivity].
Qed.
Print Assumptions C67_added_disks_win.

(** A set but dangling STXXLCFG is skipped; the host specific file wins. *)
Example C67_case :
  let env s := if seq s (L "STXXLCFG") then Some (L "/nowhere")
               else if seq s (L "HOSTNAME") then Some (L "box") else None in
  let fs s := if seq s (L "./.stxxl.box") then Some (L "x")
              else if seq s (L "./.stxxl") then Some (L "y") else None in
  first_existing fs (candidates env) (L "x").
Proof.
  exists [L "/nowhere"], (L "./.stxxl.box"), [L "./.stxxl"].
  split; [reflexivity|]. split; [repeat constructor|reflexivity].
Qed.

(** ** C68: a line of the configuration file *)

(** The members taken from a line kind=path,size,fileio. *)
Theorem C68_fields :
  forall expand parse_size pid old (fl : bool) p sz io d,
  ~ In ","%char p -> ~ In ","%char sz ->
  parse_line expand parse_size pid old
    (L (if fl then "flash=" else "disk=") ++ p ++ L "," ++ sz ++ L "," ++ io) = Some d ->
  flash d = fl /\ parse_size sz = Some (size d) /\ path d = replace_pid pid (expand p).
Proof.
  intros expand parse_size pid old fl p sz io d Hp Hs H.
  unfold parse_line in H.
  assert (E : split_min "=" (L (if fl then "flash=" else "disk=") ++ p ++ L "," ++ sz ++ L "," ++ io)
                2 2 = [L (if fl then "flash" else "disk"); p ++ L "," ++ sz ++ L "," ++ io]).
  { replace (L (if fl then "flash=" else "disk="))
      with (L (if fl then "flash" else "disk") ++ ["="%char]) by (destruct fl; reflexivity).
    rewrite <- app_assoc. apply split2_eq. destruct fl; vm_compute; intuition discriminate. }
  rewrite E in H. cbn [nth] in H. change (L ",") with [","%char] in H. cbn [app] in H.
  rewrite split3_eq in H by assumption. cbn [nth] in H.
  destruct fl.
  - change (seq (L "flash") (L "disk")) with false in H.
    change (seq (L "flash") (L "flash")) with true in H. cbv iota in H.
    destruct (parse_size sz) as [z|]; [|discriminate].
    apply parse_fileio_io in H. cbn in H.
    destruct H as (_ & _ & -> & -> & ->). auto.
  - change (seq (L "disk") (L "disk")) with true in H. cbv iota in H.
    destruct (parse_size sz) as [z|]; [|discriminate].
    apply parse_fileio_io in H. cbn in H.
    destruct H as (_ & _ & -> & -> & ->). auto.
Qed.
Print Assumptions C68_fields.

(** A path without "$$" is kept; the first "$$" is replaced by the process id,
    and the character after it is lost. *)
Theorem C68_pid :
  forall pid s, (no_dollars s -> replace_pid pid s = s) /\
  forall a b, s = a ++ L "$$" ++ b -> no_dollars (a ++ L "$") ->
    replace_pid pid s = a ++ print_int pid ++ skipn 1 b.
Proof.
  intros pid s. split; [apply replace_pid_none|]. intros a b -> N. apply replace_pid_first; assumption.
Qed.
Print Assumptions C68_pid.

Theorem C68_pid_keeps_rest_refuted :
  ~ forall pid a b, no_dollars (a ++ L "$") ->
      replace_pid pid (a ++ L "$$" ++ b) = a ++ print_int pid ++ b.
Proof.
  intros H. specialize (H 42%Z (L "/tmp/x") (L ".tmp")).
  assert (N : no_dollars (L "/tmp/x" ++ L "$")).
  { intros x y E. vm_compute in E.
    repeat (destruct x as [|? x]; [discriminate|injection E as <- E]).
    destruct x; discriminate. }
  specialize (H N). vm_compute in H. discriminate.
Qed.
Print Assumptions C68_pid_keeps_rest_refuted.

(** parse_line on an object that has been used before: the result depends on
    the old object only through raw_device and queue_length ... *)
Theorem C68_reuse :
  forall expand parse_size pid old line,
  raw_device old = false -> queue_length old = 0%Z ->
  parse_line expand parse_size pid old line = disk_of_line expand parse_size pid line.
Proof.
  intros expand parse_size pid old line H1 H2. unfold disk_of_line, parse_line.
  rewrite H1, H2. reflexivity.
Qed.
Print Assumptions C68_reuse.

(** ... but these two are not reset. *)
Theorem C68_reuse_refuted :
  forall expand pid, exists old line d d',
    parse_line expand (fun _ => Some 1%Z) pid old line = Some d /\
    disk_of_line expand (fun _ => Some 1%Z) pid line = Some d' /\
    raw_device d = true /\ queue_length d = 3%Z /\
    raw_device d' = false /\ queue_length d' = 0%Z.
Proof.
  intros expand pid.
  exists (set_qlen (set_raw (fresh [] 0 []) true) 3), (L "disk=/a,1,memory").
  eexists. eexists. split; [vm_compute; reflexivity|]. split; [vm_compute; reflexivity|].
  repeat split.
Qed.
Print Assumptions C68_reuse_refuted.

Example C68_case :
  exists d, disk_of_line (fun s => s) (fun s => if seq s (L "0") then Some 0%Z else None) 1234
     (L "disk=/d$$/f,0,syscall noautogrow") = Some d /\
  path d = L "/d1234f" /\ autogrow d = false /\ delete_on_exit d = true.
Proof. eexists. split; [vm_compute; reflexivity|]. vm_compute. repeat split. Qed.
