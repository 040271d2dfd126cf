(** Printing the options of a disk and parsing them again. *)

From Coq Require Import String Ascii List Arith Bool ZArith Lia.
From Verif Require Import FileModel ConfigModel ConfigSpec ConfigProofs.
Import ListNotations.
Local Open Scope list_scope.

(** The words that fileio_string prints after the name of the implementation. *)
Definition w_auto d := if autogrow d then [] else [L "autogrow=no"].
Definition w_del d := if delete_on_exit d then [L "delete_on_exit"] else [].
Definition w_dir d := match direct d with
  | DIRECT_OFF => [L "direct=off"] | DIRECT_TRY => [] | DIRECT_ON => [L "direct=on"] end.
Definition w_flash d := if flash d then [L "flash"] else [].
Definition w_queue d :=
  if negb (queue d =? DEFAULT_QUEUE)%Z && negb (queue d =? DEFAULT_LINUXAIO_QUEUE)%Z
  then [L "queue=" ++ print_int (queue d)] else [].
Definition w_dev d := if negb (device_id d =? DEFAULT_DEVICE_ID)%Z
  then [L "devid=" ++ print_int (device_id d)] else [].
Definition w_raw d := if raw_device d then [L "raw_device"] else [].
Definition w_unl d := if unlink_on_open d then [L "unlink_on_open"] else [].
Definition w_len d := if negb (queue_length d =? 0)%Z
  then [L "queue_length=" ++ print_int (queue_length d)] else [].

Definition words d :=
  w_auto d ++ w_del d ++ w_dir d ++ w_flash d ++ w_queue d ++ w_dev d ++ w_raw d
  ++ w_unl d ++ w_len d.

Definition spaced (ws : list str) : str := concat (map (fun w => " "%char :: w) ws).

Lemma spaced_app a b : spaced (a ++ b) = spaced a ++ spaced b.
Proof. unfold spaced. rewrite map_app, concat_app. reflexivity. Qed.

Lemma spaced_one w : spaced [w] = " "%char :: w.
Proof. unfold spaced. cbn. rewrite app_nil_r. reflexivity. Qed.

Lemma fileio_string_words d : fileio_string d = io_impl d ++ spaced (words d).
Proof.
  unfold fileio_string, words. rewrite !spaced_app.
  unfold w_auto, w_del, w_dir, w_flash, w_queue, w_dev, w_raw, w_unl, w_len.
  f_equal.
  repeat (apply f_equal2;
    [match goal with
     | |- context[if ?b then _ else _] => destruct b
     | |- context[match ?b with DIRECT_OFF => _ | _ => _ end] => destruct b
     end; rewrite ?spaced_one; reflexivity|]).
  destruct (negb (queue_length d =? 0)%Z); rewrite ?spaced_one; reflexivity.
Qed.

Lemma words_nospace d : Forall (fun w => ~ In " "%char w) (words d).
Proof.
  assert (Lit : forall s, existsb (fun c => if ascii_dec c " " then true else false) s = false ->
                ~ In " "%char s).
  { intros s H K. rewrite <- not_true_iff_false in H. apply H. apply existsb_exists.
    exists " "%char. split; [assumption|]. destruct (ascii_dec " " " "); congruence. }
  assert (Num : forall s z, existsb (fun c => if ascii_dec c " " then true else false) s = false ->
                ~ In " "%char (s ++ print_int z)).
  { intros s z H K. apply in_app_or in K. destruct K as [K|K]; [exact (Lit s H K)|].
    apply print_int_chars in K. tauto. }
  unfold words, w_auto, w_del, w_dir, w_flash, w_queue, w_dev, w_raw, w_unl, w_len.
  repeat (apply Forall_app; split);
    match goal with
     | |- context[if ?b then _ else _] => destruct b
     | |- context[match ?b with DIRECT_OFF => _ | _ => _ end] => destruct b
     end; repeat constructor; (apply Lit; reflexivity) || (apply Num; reflexivity).
Qed.

Lemma split_spaced w ws :
  Forall (fun w => ~ In " "%char w) (w :: ws) ->
  split " " (w ++ spaced ws) = w :: ws.
Proof.
  unfold split. revert w. induction ws as [|v ws IH]; intros w H.
  - cbn. rewrite app_nil_r, split_go_nosep; [reflexivity|]. inversion H; assumption.
  - inversion H; subst.
    change (spaced (v :: ws)) with (" "%char :: v ++ spaced ws).
    rewrite split_go_sep by auto. cbn [app option_map]. rewrite IH by assumption. reflexivity.
Qed.

Lemma strip_head io r : io <> [] -> ~ In " "%char io -> strip (io ++ r) = Some (io ++ r).
Proof.
  intros N H. destruct io as [|c io]; [congruence|]. cbn.
  destruct (ascii_dec c " ") as [->|]; [|reflexivity].
  exfalso; apply H; left; reflexivity.
Qed.

Lemma cut_nospace io : ~ In " "%char io -> cut io = (io, None).
Proof.
  induction io as [|c io IH]; intros H; cbn; [reflexivity|].
  destruct (ascii_dec c " ") as [->|]; [exfalso; apply H; left; reflexivity|].
  rewrite IH by (intro; apply H; right; assumption). reflexivity.
Qed.

Lemma cut_space io r : ~ In " "%char io -> cut (io ++ " "%char :: r) = (io, Some r).
Proof.
  induction io as [|c io IH]; intros H; cbn; [reflexivity|].
  destruct (ascii_dec c " ") as [->|]; [exfalso; apply H; left; reflexivity|].
  rewrite IH by (intro; apply H; right; assumption). reflexivity.
Qed.

Lemma strip_result s t : strip s = Some t -> exists c r, t = c :: r /\ c <> " "%char.
Proof.
  induction s as [|c s IH]; cbn; [discriminate|].
  destruct (ascii_dec c " "); [assumption|]. injection 1 as <-. eauto.
Qed.

Lemma cut_result s a b : cut s = (a, b) -> ~ In " "%char a /\
  s = match b with Some r => a ++ " "%char :: r | None => a end.
Proof.
  revert a b. induction s as [|c s IH]; cbn; intros a b E.
  - injection E as <- <-. cbn. tauto.
  - destruct (ascii_dec c " ") as [->|Hn].
    + injection E as <- <-. cbn. tauto.
    + destruct (cut s) as [a' b'] eqn:E2. injection E as <- <-.
      destruct (IH _ _ eq_refl) as (H & ->). split.
      * intros [->|K]; [congruence|tauto].
      * destruct b'; reflexivity.
Qed.

(** Parsing the printed text: the words one after the other. *)
Lemma parse_printed p sz d :
  io_impl d <> [] -> ~ In " "%char (io_impl d) ->
  make_disk p sz (fileio_string d) = parse_params (fresh p sz (io_impl d)) (words d).
Proof.
  intros N H. unfold make_disk, parse_fileio. cbn [io_impl fresh].
  rewrite fileio_string_words, strip_head by assumption.
  destruct (words d) as [|w ws] eqn:E.
  - cbn [spaced]. unfold spaced. cbn. rewrite app_nil_r, cut_nospace by assumption. reflexivity.
  - change (spaced (w :: ws)) with (" "%char :: w ++ spaced ws).
    rewrite cut_space by assumption. rewrite split_spaced; [reflexivity|].
    rewrite <- E. apply words_nospace.
Qed.

Lemma parse_params_app d a b :
  parse_params d (a ++ b) =
  match parse_params d a with Some d' => parse_params d' b | None => None end.
Proof.
  revert d; induction a as [|x a IH]; intros d; cbn; [reflexivity|].
  destruct (parse_param d x); auto.
Qed.

Lemma pp_queue d x :
  parse_param d (L "queue=" ++ x) =
  if seq (io_impl d) (L "linuxaio") then None
  else option_map (fun v => set_queue d (to_int v)) (number x).
Proof.
  unfold parse_param. change (L "queue=" ++ x) with (L "queue" ++ "="%char :: x).
  rewrite split2_eq by (vm_compute; intuition discriminate). reflexivity.
Qed.

Lemma pp_dev d x :
  parse_param d (L "devid=" ++ x) =
  option_map (fun v => set_device d (to_uint (to_int v))) (number x).
Proof.
  unfold parse_param. change (L "devid=" ++ x) with (L "devid" ++ "="%char :: x).
  rewrite split2_eq by (vm_compute; intuition discriminate). reflexivity.
Qed.

Lemma pp_len d x :
  parse_param d (L "queue_length=" ++ x) =
  if seq (io_impl d) (L "linuxaio")
  then option_map (fun v => set_qlen d (to_int v)) (number x) else None.
Proof.
  unfold parse_param. change (L "queue_length=" ++ x) with (L "queue_length" ++ "="%char :: x).
  rewrite split2_eq by (vm_compute; intuition discriminate). reflexivity.
Qed.

Lemma seq_case a b : (seq a b = true /\ a = b) \/ (seq a b = false /\ a <> b).
Proof. destruct (seq a b) eqn:E; [left|right]; split; auto; [apply seq_true|apply seq_false]; auto. Qed.

(** What is read from the words of one member. *)
Lemma r_auto d e : autogrow e = true ->
  parse_params e (w_auto d) = Some (set_autogrow e (autogrow d)).
Proof.
  intros H. unfold w_auto. destruct (autogrow d); [|reflexivity].
  cbn. rewrite <- H at 1. destruct e; reflexivity.
Qed.

Lemma r_del d e : delete_on_exit e = false ->
  parse_params e (w_del d) = Some (set_delete e (delete_on_exit d)).
Proof.
  intros H. unfold w_del. destruct (delete_on_exit d); [reflexivity|].
  cbn. rewrite <- H at 1. destruct e; reflexivity.
Qed.

Lemma r_dir d e : direct e = DIRECT_TRY ->
  parse_params e (w_dir d) = Some (set_direct e (direct d)).
Proof.
  intros H. unfold w_dir. destruct (direct d); try reflexivity.
  cbn. rewrite <- H at 1. destruct e; reflexivity.
Qed.

Lemma r_flash d e : parse_params e (w_flash d) = if flash d then None else Some e.
Proof. unfold w_flash. destruct (flash d); reflexivity. Qed.

Lemma r_queue d e : typed d -> queue e = DEFAULT_QUEUE ->
  parse_params e (w_queue d) =
  if (queue d =? -1)%Z || (queue d =? -2)%Z then Some e
  else if seq (io_impl e) (L "linuxaio") then None
  else Some (set_queue e (queue d)).
Proof.
  intros (T & _ & _) H. unfold w_queue, DEFAULT_QUEUE, DEFAULT_LINUXAIO_QUEUE.
  destruct (queue d =? -1)%Z; [reflexivity|]. destruct (queue d =? -2)%Z; [reflexivity|].
  cbn [negb andb orb parse_params]. rewrite pp_queue, number_print by lia.
  cbn [option_map]. rewrite to_int_mod by lia.
  destruct (seq (io_impl e) (L "linuxaio")); reflexivity.
Qed.

Lemma r_dev d e : typed d -> device_id e = DEFAULT_DEVICE_ID ->
  parse_params e (w_dev d) = Some (set_device e (device_id d)).
Proof.
  intros (_ & T & _) H. unfold w_dev.
  destruct (device_id d =? DEFAULT_DEVICE_ID)%Z eqn:E.
  - apply Z.eqb_eq in E. cbn. rewrite E, <- H. destruct e; reflexivity.
  - cbn [negb parse_params]. rewrite pp_dev, number_print by lia.
    cbn [option_map]. rewrite to_uint_mod by lia. reflexivity.
Qed.

Lemma r_raw d e : raw_device e = false ->
  parse_params e (w_raw d) =
  if raw_device d then if seq (io_impl e) (L "syscall") then Some (set_raw e true) else None
  else Some e.
Proof.
  intros H. unfold w_raw. destruct (raw_device d); [|reflexivity].
  cbn [parse_params]. change (parse_param e (L "raw_device")) with
    (if seq (io_impl e) (L "syscall") then Some (set_raw e true) else None).
  destruct (seq (io_impl e) (L "syscall")); reflexivity.
Qed.

Lemma r_unl d e : unlink_on_open e = false ->
  parse_params e (w_unl d) =
  if unlink_on_open d then
    if seq (io_impl e) (L "syscall") || seq (io_impl e) (L "linuxaio")
       || seq (io_impl e) (L "mmap")
    then Some (set_unlink e true) else None
  else Some e.
Proof.
  intros H. unfold w_unl. destruct (unlink_on_open d); [|reflexivity].
  cbn [parse_params]. change (parse_param e (L "unlink_on_open")) with
    (if seq (io_impl e) (L "syscall") || seq (io_impl e) (L "linuxaio")
       || seq (io_impl e) (L "mmap")
    then Some (set_unlink e true) else None).
  destruct (seq (io_impl e) (L "syscall") || seq (io_impl e) (L "linuxaio")
       || seq (io_impl e) (L "mmap")); reflexivity.
Qed.

Lemma r_len d e : typed d -> queue_length e = 0%Z ->
  parse_params e (w_len d) =
  if (queue_length d =? 0)%Z then Some e
  else if seq (io_impl e) (L "linuxaio") then Some (set_qlen e (queue_length d)) else None.
Proof.
  intros (_ & _ & T) H. unfold w_len.
  destruct (queue_length d =? 0)%Z; [reflexivity|].
  cbn [negb parse_params]. rewrite pp_len, number_print by lia.
  cbn [option_map]. rewrite to_int_mod by lia.
  destruct (seq (io_impl e) (L "linuxaio")); reflexivity.
Qed.

(** What is read from the printed words. *)
Definition reads_ok (d : disk) : bool :=
  negb (flash d)
  && ((queue d =? -1)%Z || (queue d =? -2)%Z || negb (seq (io_impl d) (L "linuxaio")))
  && (negb (raw_device d) || seq (io_impl d) (L "syscall"))
  && (negb (unlink_on_open d) || seq (io_impl d) (L "syscall")
      || seq (io_impl d) (L "linuxaio") || seq (io_impl d) (L "mmap"))
  && ((queue_length d =? 0)%Z || seq (io_impl d) (L "linuxaio")).

Ltac step R :=
  rewrite parse_params_app, R by (assumption || reflexivity); cbv iota beta;
  cbn [set_autogrow set_delete set_direct set_queue set_device set_raw set_unlink set_qlen set_io
       fresh io_impl path size autogrow delete_on_exit direct
       flash queue device_id raw_device unlink_on_open queue_length negb andb orb].

Lemma parse_words d : typed d ->
  parse_params (fresh (path d) (size d) (io_impl d)) (words d) =
  if reads_ok d then Some (set_queue d (if (queue d =? -2)%Z then -1 else queue d)%Z) else None.
Proof.
  intros T. unfold words.
  step r_auto. step r_del. step r_dir. step r_flash.
  unfold reads_ok. destruct d as [p sz io ag de di fl q dv rw ul ql].
  cbn [set_autogrow set_delete set_direct set_queue set_device set_raw set_unlink set_qlen set_io
       fresh io_impl path size autogrow delete_on_exit direct
       flash queue device_id raw_device unlink_on_open queue_length negb andb orb] in *.
  destruct fl; [reflexivity|]. cbn [negb andb].
  rewrite parse_params_app.
  assert (Q : ((q =? -1) || (q =? -2))%Z = true ->
              (if (q =? -2)%Z then -1 else q)%Z = DEFAULT_QUEUE).
  { unfold DEFAULT_QUEUE. destruct (Z.eqb_spec q (-2)), (Z.eqb_spec q (-1)); cbn; congruence. }
  assert (Q2 : ((q =? -1) || (q =? -2))%Z = false ->
              (if (q =? -2)%Z then -1 else q)%Z = q).
  { destruct (Z.eqb_spec q (-2)), (Z.eqb_spec q (-1)); cbn; congruence. }
  rewrite r_queue by (assumption || reflexivity).
  destruct ((q =? -1) || (q =? -2))%Z eqn:Eq; cbn [set_autogrow set_delete set_direct fresh io_impl queue]; rewrite Eq;
    [rewrite (Q eq_refl)|rewrite (Q2 eq_refl)]; clear Q Q2;
  destruct (seq io (L "linuxaio")) eqn:El; cbn [negb andb orb]; try reflexivity;
  destruct (seq io (L "syscall")) eqn:Es, (seq io (L "mmap")) eqn:Em, rw, ul;
  cbn [negb andb orb]; cbv iota beta;
  (step r_dev; step r_raw; rewrite ?Es; cbn [negb andb orb]; try reflexivity;
   step r_unl; rewrite ?Es, ?El, ?Em; cbn [negb andb orb]; try reflexivity;
   rewrite r_len by (assumption || reflexivity);
   cbn [set_autogrow set_delete set_direct set_queue set_device set_raw set_unlink set_qlen set_io
       fresh io_impl path size autogrow delete_on_exit direct
       flash queue device_id raw_device unlink_on_open queue_length negb andb orb];
   rewrite ?El; destruct (Z.eqb_spec ql 0); subst; reflexivity).
Qed.

Lemma seq_spec a b : Bool.reflect (a = b) (seq a b).
Proof. unfold seq. destruct (list_eq_dec ascii_dec a b); constructor; assumption. Qed.

(** ** What parsing leaves unchanged *)

Lemma parse_param_io d p d' : parse_param d p = Some d' ->
  io_impl d' = io_impl d /\ path d' = path d /\ size d' = size d /\ flash d' = flash d.
Proof.
  unfold parse_param. intros H.
  repeat match type of H with
  | (if ?b then _ else _) = _ => destruct b
  | option_map _ ?o = _ => destruct o; cbn [option_map] in H
  | Some _ = Some _ => injection H as <-; cbn; tauto
  | None = Some _ => discriminate H
  end.
Qed.

(** The conditions that parsing guarantees. *)
Definition parsed (d : disk) : Prop :=
  typed d /\
  (io_impl d = L "linuxaio" -> queue d = (-1)%Z) /\
  (raw_device d = true -> io_impl d = L "syscall") /\
  (unlink_on_open d = true ->
     io_impl d = L "syscall" \/ io_impl d = L "linuxaio" \/ io_impl d = L "mmap") /\
  (queue_length d <> 0%Z -> io_impl d = L "linuxaio").

Lemma parse_param_parsed d p d' : parsed d -> parse_param d p = Some d' -> parsed d'.
Proof.
  unfold parsed, typed, parse_param. intros P H.
  pose proof to_int_range as R1. pose proof to_uint_range as R2.
  repeat match type of H with
  | (if seq (io_impl d) ?x then _ else _) = _ => destruct (seq_spec (io_impl d) x)
  | (if seq (io_impl d) ?x || seq (io_impl d) ?y || seq (io_impl d) ?z then _ else _) = _ =>
      destruct (seq_spec (io_impl d) x), (seq_spec (io_impl d) y), (seq_spec (io_impl d) z);
      cbn [orb] in H
  | (if ?b then _ else _) = _ => destruct b
  | option_map _ ?o = _ => destruct o; cbn [option_map] in H
  | Some _ = Some _ => injection H as <-; cbn in *
  | None = Some _ => discriminate H
  end; try tauto;
  decompose [and] P; clear P; repeat split; auto; try apply R1; try apply R2;
    try (intros; congruence); intros; intuition congruence.
Qed.

Lemma parse_params_parsed ps d d' : parsed d -> parse_params d ps = Some d' -> parsed d'.
Proof.
  revert d; induction ps as [|p ps IH]; intros d P H; cbn in H.
  - injection H as <-. assumption.
  - destruct (parse_param d p) eqn:E; [|discriminate].
    eapply IH; [|eassumption]. eapply parse_param_parsed; eassumption.
Qed.

Lemma parse_params_io ps d d' : parse_params d ps = Some d' ->
  io_impl d' = io_impl d /\ path d' = path d /\ size d' = size d /\ flash d' = flash d.
Proof.
  revert d; induction ps as [|p ps IH]; intros d H; cbn in H.
  - injection H as <-. tauto.
  - destruct (parse_param d p) eqn:E; [|discriminate].
    apply IH in H. apply parse_param_io in E. intuition congruence.
Qed.

Lemma parse_fileio_io d d' : parse_fileio d = Some d' ->
  io_impl d' <> [] /\ ~ In " "%char (io_impl d') /\
  path d' = path d /\ size d' = size d /\ flash d' = flash d.
Proof.
  unfold parse_fileio. intros H.
  destruct (strip (io_impl d)) as [io|] eqn:E; [|discriminate].
  destruct (strip_result _ _ E) as (c & r & -> & Hc).
  destruct (cut (c :: r)) as [a b] eqn:Ec. destruct (cut_result _ _ _ Ec) as (Ha & Hb).
  destruct b as [ps|].
  - apply parse_params_io in H. cbn in H. destruct H as (-> & -> & -> & ->).
    split; [|split; [assumption|tauto]]. intros ->. cbn in Hb. congruence.
  - injection H as <-. cbn [set_io io_impl path size flash].
    split; [discriminate|]. split; [rewrite Hb; assumption|tauto].
Qed.

Lemma make_disk_parsed p sz io d : make_disk p sz io = Some d ->
  parsed d /\ io_impl d <> [] /\ ~ In " "%char (io_impl d) /\
  path d = p /\ size d = sz /\ flash d = false.
Proof.
  intros H. pose proof (parse_fileio_io _ _ H) as K. cbn [path size flash fresh] in K.
  split; [|tauto].
  unfold make_disk, parse_fileio in H.
  destruct (strip (io_impl (fresh p sz io))) as [io'|] eqn:E; [|discriminate].
  assert (P : forall x, parsed (set_io (fresh p sz io) x)).
  { intros x. unfold parsed, typed. cbn. unfold DEFAULT_QUEUE, DEFAULT_DEVICE_ID.
    repeat split; try lia; try congruence; auto. }
  destruct (cut io') as [a b]. destruct b.
  - eapply parse_params_parsed; [apply P|eassumption].
  - injection H as <-. apply P.
Qed.

Lemma roundtrip_iff d : typed d ->
  (make_disk (path d) (size d) (fileio_string d) = Some d <-> expressible d).
Proof.
  intros T. unfold expressible. split.
  - intros H. destruct (make_disk_parsed _ _ _ _ H) as ((_ & P) & N & S0 & _ & _ & F).
    rewrite parse_printed, parse_words in H by assumption.
    destruct (reads_ok d); [|discriminate]. injection H as H.
    assert (Q : queue d <> (-2)%Z).
    { intros Q. rewrite Q in H. apply (f_equal queue) in H. cbn in H. lia. }
    tauto.
  - intros (N & S0 & F & Q & A & B & C & D).
    rewrite parse_printed, parse_words by assumption.
    assert (E : reads_ok d = true).
    { unfold reads_ok. rewrite F. cbn [negb andb].
      apply andb_true_intro; split; [apply andb_true_intro; split; [apply andb_true_intro; split|]|].
      - destruct (seq_spec (io_impl d) (L "linuxaio")) as [e|n]; [|apply orb_true_r].
        rewrite (A e). reflexivity.
      - destruct (raw_device d); [|reflexivity]. rewrite (B eq_refl). reflexivity.
      - destruct (unlink_on_open d); [|reflexivity].
        destruct (C eq_refl) as [->|[->| ->]]; reflexivity.
      - destruct (Z.eqb_spec (queue_length d) 0) as [e|n]; [reflexivity|].
        rewrite (D n). reflexivity. }
    rewrite E. destruct (Z.eqb_spec (queue d) (-2)); [contradiction|].
    destruct d; reflexivity.
Qed.
