(** C108: fileperblock_file::export_files. *)

From Coq Require Import String Ascii List Arith Bool ZArith Lia.
From Verif Require Import FileModel FileSpec FileProofs FileProps ExportModel.
Import ListNotations.
Local Open Scope list_scope.
Local Open Scope nat_scope.

Local Notation slash := "/"%char.

(** What is said about paths here: [folder] is the part of [path] up to its last slash, the
    whole of which is missing if there is no slash. *)
Definition folder_of (path folder : list ascii) : Prop :=
  exists base, path = folder ++ base /\ ~ In slash base /\
    (folder = [] \/ exists f, folder = f ++ [slash]).

(** The path export_files writes to. *)
Definition exported (prefix : string) (off : nat) (name target : list ascii) : Prop :=
  exists folder, folder_of (file_name prefix off) folder /\ target = folder ++ name.

Lemma find_last_none : forall c l, find_last c l = None -> ~ In c l.
Proof.
  induction l as [|x l IH]; cbn; auto. destruct (find_last c l); [discriminate|].
  destruct (Ascii.eqb_spec x c); [discriminate|]. intros _ [->|Q]; [congruence|]. apply IH; auto.
Qed.

Lemma find_last_some : forall c l i, find_last c l = Some i -> nth_error l i = Some c /\ ~ In c (skipn (S i) l).
Proof.
  induction l as [|x l IH]; cbn [find_last]; intros i H; [discriminate|].
  destruct (find_last c l) as [j|] eqn:E.
  - inversion H; subst. destruct (IH j eq_refl). auto.
  - destruct (Ascii.eqb_spec x c); [|discriminate]. inversion H; subst. split; auto.
    cbn. apply find_last_none. auto.
Qed.

Lemma dir_part_folder : forall l, folder_of l (dir_part l).
Proof.
  intros l. unfold dir_part. destruct (find_last slash l) as [i|] eqn:E.
  - destruct (find_last_some _ _ _ E) as (N & F). exists (skipn (S i) l).
    split; [symmetry; apply firstn_skipn|]. split; auto. right. exists (firstn i l).
    clear E F. revert i N. induction l as [|x l IH]; intros [|i] N; try discriminate.
    + inversion N. reflexivity.
    + change (firstn (S (S i)) (x :: l)) with (x :: firstn (S i) l).
      change (firstn (S i) (x :: l)) with (x :: firstn i l). cbn [app]. f_equal. apply IH. auto.
  - exists l. split; auto. split; [apply find_last_none; auto|]. auto.
Qed.

Lemma folder_unique : forall l f g, folder_of l f -> folder_of l g -> f = g.
Proof.
  intros l f g (b & E1 & N1 & D1) (b' & E2 & N2 & D2). subst l.
  assert (G : forall f b f' b', f ++ b = f' ++ b' -> ~ In slash b -> (f' = [] \/ exists g, f' = g ++ [slash]) ->
    length f' <= length f).
  { clear. intros f b f' b' E N [->|(g & ->)]; [cbn; lia|].
    destruct (le_lt_dec (length (g ++ [slash])) (length f)) as [L|L]; auto. exfalso. apply N.
    rewrite app_length in L. cbn in L.
    apply (f_equal (fun l => nth_error l (length g))) in E.
    rewrite nth_error_app2 in E by lia. rewrite <- app_assoc in E.
    rewrite nth_error_app2 in E by lia. rewrite Nat.sub_diag in E. cbn in E.
    eapply nth_error_In; eauto. }
  assert (L : length f = length g) by (apply Nat.le_antisymm; [eapply (G g b' f b)|eapply (G f b g b')]; eauto).
  clear - L E2. revert g E2 L. induction f as [|x f IH]; intros [|y g] E L; try discriminate; auto.
  cbn in *. inversion E. f_equal. eapply IH; eauto.
Qed.

Lemma target_is : forall prefix off name t, exported prefix off name t ->
  t = dir_part (file_name prefix off) ++ name.
Proof.
  intros prefix off name t (f & Hf & ->). f_equal. eapply folder_unique; eauto using dir_part_folder.
Qed.

Section Props.
Variables (prefix : string) (d : dir) (off : nat) (len : Z) (name target : list ascii).
Variables (om orn ot : nat -> answer).
Hypothesis Ht : exported prefix off name target.
Hypothesis Hl : (0 <= len < 2 ^ 64)%Z.

Let block := file_name prefix off.
Definition refused (o : nat -> answer) : Prop := o 0 = Fail.

Ltac dirs := repeat (first [rewrite upd_dir_same in * | rewrite upd_dir_other in * by congruence]).

(** Only the file of the block and the target can change. *)
Theorem C108_others : forall r d' p, p_export prefix om orn ot d off len name = (r, d') ->
  p <> block -> p <> target -> d' p = d p.
Proof.
  intros r d' p H N1 N2. unfold p_export in H. rewrite <- (target_is _ _ _ _ Ht) in H. fold block in H.
  assert (A1 : sys_remove om d target p = d p).
  { unfold sys_remove. destruct (om 0); auto. apply upd_dir_other; auto. }
  assert (A2 : sys_rename orn (sys_remove om d target) block target p = d p).
  { unfold sys_rename. destruct (orn 0); auto. destruct (sys_remove om d target block); auto.
    rewrite upd_dir_other by auto. rewrite upd_dir_other by auto. auto. }
  unfold sys_truncate in H. destruct (ot 0); [inversion H; subst; auto|].
  destruct (sys_rename _ _ _ _ target); [|inversion H; subst; auto].
  destruct (_ <? 0)%Z; inversion H; subst; auto. rewrite upd_dir_other; auto.
Qed.

(** When the system does not refuse anything: the target gets the first [len] bytes of the
    block (with zeros after its end), and the block has no file any more. *)
Theorem C108_export : ~ refused om -> ~ refused orn -> ~ refused ot -> (len < 2 ^ 63)%Z ->
  target <> block -> forall c, d block = Some c ->
  exists d', p_export prefix om orn ot d off len name = (Done tt, d') /\
    d' target = Some (fit (Z.to_nat len) c) /\ d' block = None /\
    forall p, p <> block -> p <> target -> d' p = d p.
Proof.
  intros R1 R2 R3 L N c Hc.
  destruct (p_export prefix om orn ot d off len name) as (r & d') eqn:E. pose proof E as E'.
  unfold p_export in E. rewrite <- (target_is _ _ _ _ Ht) in E. fold block in E.
  unfold refused in *. unfold sys_remove, sys_rename, sys_truncate in E.
  destruct (om 0); [congruence|]. destruct (orn 0); [congruence|]. destruct (ot 0); [congruence|].
  rewrite (upd_dir_other d target) in E by congruence. rewrite Hc, upd_dir_same in E.
  unfold as_signed in E. destruct (Z.ltb_spec len (2 ^ 63)); [|lia].
  destruct (Z.ltb_spec len 0); [lia|]. inversion E; subst. eexists. split; [reflexivity|].
  split; [rewrite upd_dir_same, fit_truncate; auto|].
  split; [rewrite upd_dir_other, upd_dir_other, upd_dir_same by congruence; auto|].
  intros p N1 N2. rewrite !upd_dir_other; auto.
Qed.

(** It returns only if the target has exactly [len] bytes.  These are the block's, or
    neither removing nor renaming was possible and they are those of the old target; the
    block is unchanged then. *)
Theorem C108_returns : forall d', p_export prefix om orn ot d off len name = (Done tt, d') ->
  (len < 2 ^ 63)%Z /\ ~ refused ot /\
  ((exists c, d block = Some c /\ d' target = Some (fit (Z.to_nat len) c) /\ (target <> block -> d' block = None)) \/
   (refused om /\ exists c, d target = Some c /\ d' target = Some (fit (Z.to_nat len) c) /\
      (refused orn \/ d block = None) /\ (target <> block -> d' block = d block))).
Proof.
  intros d' E. unfold p_export in E. rewrite <- (target_is _ _ _ _ Ht) in E. fold block in E.
  assert (Q : sys_truncate ot (sys_rename orn (sys_remove om d target) block target) target (as_signed len) = Some d').
  { destruct (sys_truncate _ _ _ _); inversion E; auto. }
  clear E. unfold sys_truncate, refused in *. destruct (ot 0); [discriminate|].
  destruct (sys_rename orn (sys_remove om d target) block target target) as [c|] eqn:Ec; [|discriminate].
  unfold as_signed in Q. destruct (Z.ltb_spec len (2 ^ 63)).
  2: { destruct (Z.ltb_spec (len - 2 ^ 64) 0); [discriminate|lia]. }
  split; auto. split; [discriminate|].
  destruct (Z.ltb_spec len 0); [lia|]. inversion Q; subst d'. rewrite upd_dir_same, fit_truncate.
  unfold sys_rename, sys_remove in *.
  destruct (om 0) eqn:Em.
  - destruct (orn 0) eqn:En.
    + right. split; auto. exists c. split; auto. split; auto. split; auto. intros N. rewrite upd_dir_other; auto.
    + destruct (d block) as [cb|] eqn:Eb.
      * left. exists cb. rewrite upd_dir_same in Ec. inversion Ec; subst c. split; auto. split; auto.
        intros N. rewrite upd_dir_other, upd_dir_other, upd_dir_same; auto.
      * right. split; auto. exists c. split; auto. split; auto. split; auto.
        intros N. rewrite upd_dir_other; auto.
  - destruct (orn 0) eqn:En; [rewrite upd_dir_same in Ec; discriminate|].
    destruct (upd_dir d target None block) as [cb|] eqn:Eb; [|rewrite upd_dir_same in Ec; discriminate].
    rewrite upd_dir_same in Ec. inversion Ec; subst cb.
    assert (N : target <> block) by (intros Q'; rewrite Q', upd_dir_same in Eb; discriminate).
    rewrite upd_dir_other in Eb by congruence.
    left. exists c. split; auto. split; auto. intros _.
    rewrite upd_dir_other, upd_dir_other, upd_dir_same; auto.
Qed.

(** When it throws, the data of the block are still in one of the two files. *)
Theorem C108_throws : forall r d' c, p_export prefix om orn ot d off len name = (r, d') -> r <> Done tt ->
  d block = Some c -> target <> block ->
  r = IoError tt /\ (d' block = Some c \/ (d' block = None /\ d' target = Some c)).
Proof.
  intros r d' c E Nr Hc N. unfold p_export in E. rewrite <- (target_is _ _ _ _ Ht) in E. fold block in E.
  destruct (sys_truncate _ _ _ _); inversion E; subst; [congruence|]. split; auto.
  assert (Eb : sys_remove om d target block = Some c).
  { unfold sys_remove. destruct (om 0); auto. rewrite upd_dir_other; auto. }
  unfold sys_rename. rewrite Eb. destruct (orn 0); auto.
  right. rewrite upd_dir_same. rewrite upd_dir_other, upd_dir_same by auto. auto.
Qed.

End Props.
Print Assumptions C108_others.
Print Assumptions C108_export.
Print Assumptions C108_returns.
Print Assumptions C108_throws.

(** After operations on the fileperblock file that all succeeded, the exported file has
    what was written to the block. *)
Theorem C108_last_written : forall creat prefix d0 ops d om orn ot off len name target wo ws wx data ops1,
  p_run creat false prefix d0 (ops1 ++ PWrite wo ws wx off data :: ops) = Some d ->
  (forall op, In op ops -> op_offset op <> off) ->
  exported prefix off name target -> target <> file_name prefix off ->
  (0 <= len < 2 ^ 63)%Z -> ~ refused om -> ~ refused orn -> ~ refused ot ->
  exists d', p_export prefix om orn ot d off len name = (Done tt, d') /\
    d' target = Some (fit (Z.to_nat len) data) /\
    forall off', off' <> off -> target <> file_name prefix off' ->
      d' (file_name prefix off') = d (file_name prefix off').
Proof.
  intros creat prefix d0 ops d om orn ot off len name target wo ws wx data ops1 R Ho Ht N L R1 R2 R3.
  assert (Hc : d (file_name prefix off) = Some data).
  { revert d0 R. induction ops1 as [|o ops1 IH]; intros d0 R; cbn [app p_run] in R.
    - cbn [p_step] in R. destruct (p_write creat false prefix wo ws wx d0 off data) as ([[]|[]|] & d1) eqn:P; try discriminate.
      apply p_write_done in P. assert (Q : d1 (file_name prefix off) = Some data) by (subst; apply upd_dir_same).
      clear P. revert d1 R Q. induction ops as [|o ops IH]; intros d1 R Q; cbn [p_run] in R; [inversion R; subst; auto|].
      destruct (p_step creat false prefix d1 o) as ([|] & d2) eqn:St; [|discriminate].
      apply (IH (fun op H => Ho op (or_intror H)) d2 R).
      destruct (C31_isolation _ _ _ _ _ _ _ St) as (_ & I). rewrite I; auto. intros E. exact (Ho o (or_introl eq_refl) (eq_sym E)).
    - destruct (p_step creat false prefix d0 o) as ([|] & d2); [|discriminate]. eauto. }
  destruct (C108_export prefix d off len name target om orn ot Ht ltac:(lia) R1 R2 R3 ltac:(lia) N data Hc)
    as (d' & E & T & _ & O).
  exists d'. split; auto. split; auto. intros off' No Nt. apply O; auto.
  intros Q. apply No. eapply file_name_inj; eauto.
Qed.
Print Assumptions C108_last_written.

(** The block itself is gone: reading it gives zeros (or fails if files are not created). *)
Theorem C108_block_gone : forall creat prefix d om orn ot off len name target oo os ox n r d' d'',
  exported prefix off name target -> target <> file_name prefix off -> (0 <= len < 2 ^ 64)%Z ->
  p_export prefix om orn ot d off len name = (Done tt, d') -> ~ refused orn -> d (file_name prefix off) <> None ->
  p_read creat false prefix oo os ox d' off n = (r, d'') ->
  match r with Done b => creat = true /\ b = repeat 0%Z n | IoError _ => True | Stuck => False end.
Proof.
  intros creat prefix d om orn ot off len name target oo os ox n r d' d'' Ht N L E R Hb P.
  destruct (C108_returns _ _ _ _ _ _ _ _ _ Ht L _ E) as (_ & _ & [(c & _ & _ & Q)|(_ & c & _ & _ & [Q|Q] & _)]); try contradiction.
  specialize (Q N). destruct r as [b|b|]; auto.
  - pose proof P as P'. apply p_read_done in P. destruct P as (-> & _). unfold stored. rewrite Q. split.
    + unfold p_read in P'. destruct (oo 0); [discriminate|]. unfold open_file in P'. rewrite Q in P'.
      destruct creat; auto. discriminate.
    + unfold fit. cbn [app]. rewrite <- (repeat_length 0%Z n) at 1. apply firstn_all.
  - unfold p_read in P. destruct (oo 0); [discriminate|]. destruct (open_file creat false d' (file_name prefix off)) as [c0|]; [|discriminate].
    pose proof (set_size_spec os c0 n) as S. destruct (set_size os c0 n) as [c'|c'|]; try discriminate; auto.
    pose proof (C30_read ox c' 0 n) as W. destruct (serve_read ox c' 0 n) as ([b|b|] & k0); cbn [fst] in *; auto; discriminate.
Qed.
Print Assumptions C108_block_gone.

(** *** Cases *)

Local Notation L := list_ascii_of_string.
Definition fine (n : nat) : answer := Xfer 5.
Definition never (n : nat) : answer := Fail.
Definition d108 : dir := upd_dir (upd_dir (fun _ => None) (file_name "/d/x" 0) (Some [1; 2; 3; 4]%Z))
  (L "/d/out") (Some [9]%Z).

Lemma target108 : exported "/d/x" 0 (L "out") (L "/d/out").
Proof.
  exists (L "/d/"). split; [|reflexivity]. exists (L "x_fpb_00000000000000000000"). split; [reflexivity|].
  split; [|right; exists (L "/d"); reflexivity]. cbn. intros H. repeat destruct H as [H|H]; try discriminate. destruct H.
Qed.

Example C108_case : exists d', p_export "/d/x" fine fine fine d108 0 3 (L "out") = (Done tt, d') /\
  d' (L "/d/out") = Some [1; 2; 3]%Z /\ d' (file_name "/d/x" 0) = None /\
  (exists d'', p_export "/d/x" fine fine never d108 0 3 (L "out") = (IoError tt, d'') /\
     d'' (L "/d/out") = Some [1; 2; 3; 4]%Z) /\
  exported "/d/x" 0 (L "out") (L "/d/out") /\ L "/d/out" <> file_name "/d/x" 0 /\
  p_run true false "/d/x" (fun _ => None) [PWrite fine fine fine 0 [5; 6]%Z; PWrite fine fine fine 4 [7]%Z] <> None.
Proof.
  eexists. split; [reflexivity|]. split; [vm_compute; reflexivity|]. split; [vm_compute; reflexivity|].
  split; [eexists; split; [reflexivity|vm_compute; reflexivity]|].
  split; [exact target108|]. split; [discriminate|]. vm_compute. discriminate.
Qed.

(** Exporting to the name of the block itself destroys the data. *)
Theorem C108_own_name_refuted : ~ (forall prefix d off len name target om orn ot r d' c,
  exported prefix off name target -> (0 <= len < 2 ^ 64)%Z ->
  p_export prefix om orn ot d off len name = (r, d') -> d (file_name prefix off) = Some c ->
  d' (file_name prefix off) <> None \/ d' target <> None).
Proof.
  intros H.
  assert (T : exported "x" 0 (file_name "x" 0) (file_name "x" 0)).
  { exists []. split; [|reflexivity]. exists (file_name "x" 0). split; [reflexivity|]. split; [|auto].
    cbn. intros H'. repeat destruct H' as [H'|H']; try discriminate. destruct H'. }
  destruct (H "x"%string (upd_dir (fun _ => None) (file_name "x" 0) (Some [1]%Z)) 0 1%Z (file_name "x" 0)
    (file_name "x" 0) fine fine fine (IoError tt) _ [1]%Z T ltac:(lia) eq_refl eq_refl) as [Q|Q]; vm_compute in Q; congruence.
Qed.
Print Assumptions C108_own_name_refuted.

(** A block that was never written: the exception comes after the target was removed. *)
Theorem C108_target_kept_refuted : ~ (forall prefix d off len name target om orn ot d',
  exported prefix off name target -> (0 <= len < 2 ^ 64)%Z -> target <> file_name prefix off ->
  p_export prefix om orn ot d off len name = (IoError tt, d') -> d (file_name prefix off) = None ->
  d' target = d target).
Proof.
  intros H. specialize (H "/d/x"%string (upd_dir (fun _ => None) (L "/d/out") (Some [9]%Z)) 0 1%Z (L "out") (L "/d/out")
    fine fine fine _ target108 ltac:(lia) ltac:(discriminate) eq_refl eq_refl).
  vm_compute in H. discriminate.
Qed.
Print Assumptions C108_target_kept_refuted.

(** It may return without having exported anything. *)
Theorem C108_return_means_exported_refuted : ~ (forall prefix d off len name target om orn ot d' c,
  exported prefix off name target -> (0 <= len < 2 ^ 64)%Z -> target <> file_name prefix off ->
  p_export prefix om orn ot d off len name = (Done tt, d') -> d (file_name prefix off) = Some c ->
  d' target = Some (fit (Z.to_nat len) c)).
Proof.
  intros H. specialize (H "/d/x"%string d108 0 1%Z (L "out") (L "/d/out")
    never never fine _ [1; 2; 3; 4]%Z target108 ltac:(lia) ltac:(discriminate) eq_refl eq_refl).
  vm_compute in H. discriminate.
Qed.
Print Assumptions C108_return_means_exported_refuted.

(** The name of another block is no protection for that block. *)
Theorem C108_blocks_apart_refuted : ~ (forall prefix d off len name target om orn ot d' off',
  exported prefix off name target -> (0 <= len < 2 ^ 64)%Z -> target <> file_name prefix off ->
  p_export prefix om orn ot d off len name = (Done tt, d') -> off' <> off ->
  d' (file_name prefix off') = d (file_name prefix off')).
Proof.
  intros H.
  assert (T : exported "x" 0 (file_name "x" 4) (file_name "x" 4)).
  { exists []. split; [|reflexivity]. exists (file_name "x" 0). split; [reflexivity|]. split; [|auto].
    cbn. intros H'. repeat destruct H' as [H'|H']; try discriminate. destruct H'. }
  specialize (H "x"%string (upd_dir (upd_dir (fun _ => None) (file_name "x" 0) (Some [1]%Z)) (file_name "x" 4) (Some [2]%Z))
    0 1%Z (file_name "x" 4) (file_name "x" 4) fine fine fine _ 4 T ltac:(lia) ltac:(vm_compute; discriminate) eq_refl ltac:(discriminate)).
  vm_compute in H. discriminate.
Qed.
Print Assumptions C108_blocks_apart_refuted.
