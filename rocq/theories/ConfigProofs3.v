(** Lemmas about configuration files, the initialisation and device ids. *)

From Coq Require Import String Ascii List Arith Bool ZArith Lia.
From Verif Require Import FileModel ConfigModel ConfigSpec ConfigProofs ConfigProofs2.
Import ListNotations.
Local Open Scope list_scope.

(** ** Lines *)

Lemma getlines_line cur l r :
  ~ In newline l -> getlines cur (l ++ newline :: r) = (cur ++ l) :: getlines [] r.
Proof.
  revert cur; induction l as [|c l IH]; intros cur H; cbn.
  - rewrite app_nil_r. reflexivity.
  - destruct (ascii_dec c "010") as [->|n].
    + exfalso; apply H; left; reflexivity.
    + rewrite IH by (intro; apply H; right; assumption). rewrite <- app_assoc. reflexivity.
Qed.

Lemma getlines_rest cur l :
  ~ In newline l -> getlines cur l = match cur ++ l with [] => [] | x => [x] end.
Proof.
  revert cur; induction l as [|c l IH]; intros cur H; cbn.
  - rewrite app_nil_r. destruct cur; reflexivity.
  - destruct (ascii_dec c "010") as [->|n].
    + exfalso; apply H; left; reflexivity.
    + rewrite IH by (intro; apply H; right; assumption). rewrite <- app_assoc. reflexivity.
Qed.

Lemma getlines_concat ls r :
  Forall (fun l => ~ In newline l) ls ->
  getlines [] (concat (map (fun l => l ++ [newline]) ls) ++ r) = ls ++ getlines [] r.
Proof.
  induction 1 as [|l ls H F IH]; cbn; [reflexivity|].
  rewrite <- !app_assoc. cbn [app]. rewrite getlines_line by assumption. cbn [app].
  rewrite IH. reflexivity.
Qed.

Lemma getlines_is_lines s ls : is_lines s ls -> getlines [] s = ls.
Proof.
  intros (F & [->|(init & last & -> & N & ->)]).
  - rewrite <- (app_nil_r (concat _)), getlines_concat by assumption. cbn. apply app_nil_r.
  - apply Forall_app in F. destruct F as (F1 & F2). inversion F2; subst.
    rewrite getlines_concat, getlines_rest by assumption. cbn [app].
    destruct last; [congruence|reflexivity].
Qed.

(** Every text has lines. *)
Lemma is_lines_exists s : exists ls, is_lines s ls.
Proof.
  induction s as [|c s (ls & F & H)].
  - exists []. split; [constructor|left; reflexivity].
  - destruct (ascii_dec c newline) as [->|n].
    + exists ([] :: ls). split; [constructor; auto|].
      destruct H as [->|(i & l & -> & N & ->)]; [left; reflexivity|].
      right. exists ([] :: i), l. auto.
    + destruct H as [->|(i & l & -> & N & ->)].
      * destruct ls as [|l ls].
        -- exists [[c]]. split; [repeat constructor; intros [->|[]]; congruence|].
           right. exists [], [c]. repeat split; congruence.
        -- inversion F; subst. exists ((c :: l) :: ls). split.
           ++ constructor; [intros [->|K]; [congruence|tauto]|assumption].
           ++ left. reflexivity.
      * destruct i as [|l0 i].
        -- exists [c :: l]. inversion F; subst. split.
           ++ constructor; [intros [->|K]; [congruence|tauto]|constructor].
           ++ right. exists [], (c :: l). repeat split; congruence.
        -- inversion F; subst. exists ((c :: l0) :: (i ++ [l])). split.
           ++ constructor; [intros [->|K]; [congruence|tauto]|assumption].
           ++ right. exists ((c :: l0) :: i), l. auto.
Qed.

Section Config.
Variable expand : str -> str.
Variable parse_size : str -> option Z.
Variable pid : Z.
Notation disk_of_line := (disk_of_line expand parse_size pid).
Notation load_lines := (load_lines expand parse_size pid).

Lemma split2_shape sep s :
  exists a b, split_min sep s 2 2 = [a; b] /\
    ((~ In sep s /\ a = s /\ b = []) \/ (~ In sep a /\ s = a ++ sep :: b)).
Proof.
  destruct (in_dec ascii_dec sep s) as [H|H].
  - apply in_split in H as H0.
    assert (K : exists a b, s = a ++ sep :: b /\ ~ In sep a).
    { clear H0. induction s as [|c s IH]; [destruct H|].
      destruct (ascii_dec c sep) as [->|n].
      - exists [], s. split; [reflexivity|tauto].
      - destruct IH as (a & b & -> & N); [destruct H; [congruence|assumption]|].
        exists (c :: a), b. split; [reflexivity|]. intros [->|K]; [congruence|tauto]. }
    destruct K as (a & b & -> & N). exists a, b. rewrite split2_eq by assumption. auto.
  - exists s, []. rewrite split2_none by assumption. auto.
Qed.

(** A line that is accepted begins with disk= or flash=, which determines the
    flash flag. *)
Lemma disk_of_line_kind l d : disk_of_line l = Some d ->
  (flash d = false /\ starts (L "disk=") l) \/ (flash d = true /\ starts (L "flash=") l).
Proof.
  unfold ConfigModel.disk_of_line, parse_line. intros H.
  destruct (split2_shape "=" l) as (a & b & E & K). rewrite E in H. cbn [nth] in H.
  assert (B : b = [] ->
    nth 2 (split_min "," b 3 3) [] = []) by (intros ->; reflexivity).
  destruct (seq_spec a (L "disk")) as [->|n1].
  - destruct (parse_size _) as [sz|]; [|discriminate].
    pose proof (parse_fileio_io _ _ H) as (N & _ & _ & _ & F). cbn [flash] in F.
    destruct K as [(_ & _ & Eb)|(_ & ->)].
    + rewrite (B Eb) in H. discriminate H.
    + left. split; [assumption|]. exists b. reflexivity.
  - destruct (seq_spec a (L "flash")) as [->|n2]; [|discriminate].
    destruct (parse_size _) as [sz|]; [|discriminate].
    pose proof (parse_fileio_io _ _ H) as (N & _ & _ & _ & F). cbn [flash] in F.
    destruct K as [(_ & _ & Eb)|(_ & ->)].
    + rewrite (B Eb) in H. discriminate H.
    + right. split; [assumption|]. exists b. reflexivity.
Qed.

Lemma disk_not_flash (l : str) : starts (L "disk=") l -> ~ starts (L "flash=") l.
Proof. intros (r & ->) (r' & H). discriminate. Qed.

Lemma skipped_no_entry l : blank_or_comment l ->
  ~ starts (L "disk=") l /\ ~ starts (L "flash=") l.
Proof. intros [->|(r & ->)]; split; intros (r' & H); discriminate. Qed.

(** The loop over the lines. *)
Lemma load_lines_ok ls : forall dl fl dl' fl',
  load_lines ls dl fl = inl (dl', fl') ->
  exists ls1 ls2 ds fs,
    sub (starts (L "disk=")) ls ls1 /\ sub (starts (L "flash=")) ls ls2 /\
    Forall2 (fun l d => disk_of_line l = Some d /\ flash d = false) ls1 ds /\
    Forall2 (fun l d => disk_of_line l = Some d /\ flash d = true) ls2 fs /\
    dl' = dl ++ ds /\ fl' = fl ++ fs /\
    Forall (fun l => blank_or_comment l \/ exists d, disk_of_line l = Some d) ls.
Proof.
  induction ls as [|l ls IH]; intros dl fl dl' fl' H; cbn in H.
  - injection H as <- <-. exists [], [], [], [].
    rewrite !app_nil_r. repeat split; constructor.
  - assert (Skip : load_lines ls dl fl = inl (dl', fl') -> blank_or_comment l ->
      exists ls1 ls2 ds fs,
    sub (starts (L "disk=")) (l :: ls) ls1 /\ sub (starts (L "flash=")) (l :: ls) ls2 /\
    Forall2 (fun l d => disk_of_line l = Some d /\ flash d = false) ls1 ds /\
    Forall2 (fun l d => disk_of_line l = Some d /\ flash d = true) ls2 fs /\
    dl' = dl ++ ds /\ fl' = fl ++ fs /\
    Forall (fun l => blank_or_comment l \/ exists d, disk_of_line l = Some d) (l :: ls)).
    { intros H0 B. destruct (IH _ _ _ _ H0) as (l1 & l2 & ds & fs & A1 & A2 & A3 & A4 & A5 & A6 & A7).
      destruct (skipped_no_entry _ B).
      exists l1, l2, ds, fs. repeat split; auto; constructor; auto. }
    destruct l as [|c l']; [apply Skip; [assumption|left; reflexivity]|].
    destruct (ascii_dec c "#") as [->|n].
    { apply Skip; [assumption|]. right. exists l'. reflexivity. }
    clear Skip. set (l := c :: l') in *.
    destruct (disk_of_line l) as [e|] eqn:E; [|discriminate].
    destruct (disk_of_line_kind _ _ E) as [(F & St)|(F & St)]; rewrite F in H;
      destruct (IH _ _ _ _ H) as (l1 & l2 & ds & fs & A1 & A2 & A3 & A4 & A5 & A6 & A7).
    + exists (l :: l1), l2, (e :: ds), fs. repeat split.
      * constructor; assumption.
      * constructor; [apply disk_not_flash|]; assumption.
      * constructor; auto.
      * assumption.
      * rewrite A5, <- app_assoc. reflexivity.
      * assumption.
      * constructor; eauto.
    + exists l1, (l :: l2), ds, (e :: fs). repeat split.
      * constructor; [|assumption]. intros K. exact (disk_not_flash _ K St).
      * constructor; assumption.
      * assumption.
      * constructor; auto.
      * assumption.
      * rewrite A6, <- app_assoc. reflexivity.
      * constructor; eauto.
Qed.

(** A line that throws ends the loop; the disks in front of it stay. *)
Lemma load_lines_bad ls : forall dl fl dl',
  load_lines ls dl fl = inr dl' ->
  exists before bad after ls1 ds,
    ls = before ++ bad :: after /\ ~ blank_or_comment bad /\ disk_of_line bad = None /\
    sub (starts (L "disk=")) before ls1 /\
    Forall2 (fun l d => disk_of_line l = Some d /\ flash d = false) ls1 ds /\
    dl' = dl ++ ds.
Proof.
  induction ls as [|l ls IH]; intros dl fl dl' H; cbn in H; [discriminate|].
  assert (Skip : load_lines ls dl fl = inr dl' -> blank_or_comment l ->
    exists before bad after ls1 ds,
    l :: ls = before ++ bad :: after /\ ~ blank_or_comment bad /\ disk_of_line bad = None /\
    sub (starts (L "disk=")) before ls1 /\
    Forall2 (fun l d => disk_of_line l = Some d /\ flash d = false) ls1 ds /\
    dl' = dl ++ ds).
  { intros H0 B. destruct (IH _ _ _ H0) as (b & x & a & l1 & ds & -> & A2 & A3 & A4 & A5 & A6).
    destruct (skipped_no_entry _ B).
    exists (l :: b), x, a, l1, ds. repeat split; auto. constructor; auto. }
  destruct l as [|c l']; [apply Skip; [assumption|left; reflexivity]|].
  destruct (ascii_dec c "#") as [->|n].
  { apply Skip; [assumption|]. right. exists l'. reflexivity. }
  clear Skip. set (l := c :: l') in *.
  destruct (disk_of_line l) as [e|] eqn:E.
  - destruct (disk_of_line_kind _ _ E) as [(F & St)|(F & St)]; rewrite F in H;
      destruct (IH _ _ _ H) as (b & x & a & l1 & ds & -> & A2 & A3 & A4 & A5 & A6).
    + exists (l :: b), x, a, (l :: l1), (e :: ds). repeat split; auto.
      * constructor; assumption.
      * rewrite A6, <- app_assoc. reflexivity.
    + exists (l :: b), x, a, l1, ds. repeat split; auto.
      constructor; [|assumption]. intros K. exact (disk_not_flash _ K St).
  - injection H as <-. exists [], l, ls, [], []. rewrite app_nil_r.
    repeat split; auto; try constructor.
    intros [K|(r & K)]; [discriminate|]. injection K as K _. congruence.
Qed.

(** The loop succeeds if every line is skipped or accepted. *)
Lemma load_lines_succeeds ls : forall dl fl,
  Forall (fun l => blank_or_comment l \/ exists d, disk_of_line l = Some d) ls ->
  exists dl' fl', load_lines ls dl fl = inl (dl', fl').
Proof.
  intros dl fl F. destruct (load_lines ls dl fl) as [[dl' fl']|dl'] eqn:E; [eauto|].
  destruct (load_lines_bad _ _ _ _ E) as (b & x & a & l1 & ds & -> & A2 & A3 & _).
  apply Forall_app in F. destruct F as (_ & F). inversion F; subst.
  destruct H1 as [K|(d & K)]; [contradiction|congruence].
Qed.
End Config.

(** ** Device ids *)

Lemma assign_spec reqs : forall c n,
  (length reqs <= n)%nat ->
  (0 <= max_dev c)%Z -> (max_dev c + Z.of_nat n < 2 ^ 32)%Z ->
  Forall (fun r => r = DEFAULT_DEVICE_ID \/ (0 <= r /\ r + 1 + Z.of_nat n < 2 ^ 32)%Z) reqs ->
  let '(ids, c') := assign_all c reqs in
  length ids = length reqs /\
  (max_dev c <= max_dev c')%Z /\
  Forall (fun i => (0 <= i < max_dev c')%Z) ids /\
  (forall k i, nth_error ids k = Some i ->
     exists r, nth_error reqs k = Some r /\
       ((r <> DEFAULT_DEVICE_ID /\ i = r) \/
        (r = DEFAULT_DEVICE_ID /\ (max_dev c <= i)%Z /\
         forall j i', (j < k)%nat -> nth_error ids j = Some i' -> (i' < i)%Z))).
Proof.
  induction reqs as [|r reqs IH]; intros c n Hn H0 Hb F; cbn.
  - repeat split; auto; try lia. intros k i E. destruct k; discriminate.
  - cbn in Hn. inversion F as [|? ? Hr F']; subst.
    assert (Fn : Forall (fun r => r = DEFAULT_DEVICE_ID \/
                  (0 <= r /\ r + 1 + Z.of_nat (n - 1) < 2 ^ 32)%Z) reqs).
    { eapply Forall_impl; [|exact F']. cbn. intros a [K|K]; [tauto|right]. lia. }
    unfold assign_device_id. destruct (Z.eqb_spec r DEFAULT_DEVICE_ID) as [e|ne].
    + cbn [next_device_id].
      set (c1 := mkConfig (disks c) (first_flash c) (is_initialized c)
                          ((max_dev c + 1) mod 2 ^ 32)) in *.
      assert (M : max_dev c1 = (max_dev c + 1)%Z)
        by (cbn; rewrite Z.mod_small by lia; reflexivity).
      specialize (IH c1 (n - 1)%nat ltac:(lia) ltac:(lia) ltac:(lia) Fn).
      change (next_device_id c) with (max_dev c, c1).
      destruct (assign_all c1 reqs) as [ids c2].
      destruct IH as (L1 & L2 & L3 & L4). repeat split.
      * cbn. lia.
      * lia.
      * constructor; [lia|assumption].
      * intros k i E. destruct k as [|k]; cbn in E.
        -- injection E as <-. exists r. split; [reflexivity|]. right.
           repeat split; auto; lia.
        -- destruct (L4 _ _ E) as (r' & E' & K). exists r'. split; [exact E'|].
           destruct K as [K|(K1 & K2 & K3)]; [tauto|]. right. repeat split; auto; [lia|].
           intros j i' Hj Ej. destruct j as [|j]; cbn in Ej.
           ++ injection Ej as <-. lia.
           ++ apply (K3 j); [lia|assumption].
    + destruct Hr as [?|Hr]; [contradiction|].
      set (c1 := update_max_device_id c r) in *.
      assert (M : (max_dev c1 = Z.max (max_dev c) (r + 1))%Z).
      { unfold c1, update_max_device_id. rewrite Z.mod_small by lia.
        destruct (Z.ltb_spec (max_dev c) (r + 1)); cbn; lia. }
      specialize (IH c1 (n - 1)%nat ltac:(lia) ltac:(lia) ltac:(lia) Fn).
      destruct (assign_all c1 reqs) as [ids c2].
      destruct IH as (L1 & L2 & L3 & L4). repeat split.
      * cbn. lia.
      * lia.
      * constructor; [lia|assumption].
      * intros k i E. destruct k as [|k]; cbn in E.
        -- injection E as <-. exists r. split; [reflexivity|]. left. auto.
        -- destruct (L4 _ _ E) as (r' & E' & K). exists r'. split; [exact E'|].
           destruct K as [K|(K1 & K2 & K3)]; [tauto|]. right. repeat split; auto; [lia|].
           intros j i' Hj Ej. destruct j as [|j]; cbn in Ej.
           ++ injection Ej as <-. lia.
           ++ apply (K3 j); [lia|assumption].
Qed.
