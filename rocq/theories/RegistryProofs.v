(** Proofs about the table of queues. *)
From Coq Require Import List ZArith Bool Lia.
From Verif Require Import RegistryModel RegistrySpec.
Import ListNotations.
Local Open Scope Z_scope.

Ltac csplit := repeat match goal with |- _ /\ _ => split end.

(** ** Negotiation *)

Lemma to_int_double : forall m, 1 < m < 2147483648 ->
  (to_int (Z.shiftl m 1) = 2 * m /\ 2 * m < 2147483648) \/ to_int (Z.shiftl m 1) <= 0.
Proof.
  intros m H. unfold to_int. rewrite Z.shiftl_mul_pow2 by lia. change (2 ^ 1) with 2.
  destruct (Z_lt_le_dec (m * 2) 2147483648).
  - left. rewrite Z.mod_small by lia. lia.
  - right. replace (m * 2 + 2147483648) with (m * 2 - 2147483648 + 1 * 4294967296) by lia.
    rewrite Z.mod_add by lia. rewrite Z.mod_small by lia. lia.
Qed.

Lemma negotiate_S : forall f kernel m, negotiate (S f) kernel m =
  match kernel (to_unsigned m) with
  | KOk => ([m], NOk m)
  | KErr => ([m], NThrow)
  | KAgain => if 1 <? m
      then (m :: fst (negotiate f kernel (to_int (Z.shiftl m 1))), snd (negotiate f kernel (to_int (Z.shiftl m 1))))
      else ([m], NThrow)
  end.
Proof. intros. cbn [negotiate]. destruct (negotiate f kernel (to_int (Z.shiftl m 1))). reflexivity. Qed.

Lemma negotiate_small : forall f kernel m, m <= 1 ->
  snd (negotiate (S f) kernel m) <> NNoFuel /\ length (fst (negotiate (S f) kernel m)) = 1%nat.
Proof.
  intros. rewrite negotiate_S. destruct (kernel (to_unsigned m)); try (cbn; split; [discriminate|auto]).
  destruct (Z.ltb_spec 1 m); [lia|]. cbn; split; [discriminate|auto].
Qed.

(** Number of tries: a positive value of at least 2^k is doubled at most 31 - k
    times. *)
Lemma negotiate_done : forall (f k : nat) kernel m, 2 ^ Z.of_nat k <= m < 2147483648 -> (31 < k + f)%nat ->
  snd (negotiate (S f) kernel m) <> NNoFuel /\ (length (fst (negotiate (S f) kernel m)) <= 32 - k)%nat.
Proof.
  induction f as [|f IH]; intros k kernel m H F.
  - assert (K : 2 ^ 31 <= 2 ^ Z.of_nat k) by (apply Z.pow_le_mono_r; lia).
    change (2 ^ 31) with 2147483648 in K. lia.
  - assert (K : (k < 31)%nat).
    { destruct (Nat.lt_ge_cases k 31); auto.
      assert (K : 2 ^ 31 <= 2 ^ Z.of_nat k) by (apply Z.pow_le_mono_r; lia).
      change (2 ^ 31) with 2147483648 in K. lia. }
    rewrite negotiate_S. destruct (kernel (to_unsigned m)).
    1, 3: cbn [fst snd length]; split; [discriminate|lia].
    destruct (Z.ltb_spec 1 m); [|cbn [fst snd length]; split; [discriminate|lia]].
    cbn [fst snd length].
    destruct (to_int_double m ltac:(lia)) as [(E & L)|E].
    + rewrite E.
      assert (P : 2 ^ Z.of_nat (S k) <= 2 * m).
      { rewrite Nat2Z.inj_succ, Z.pow_succ_r by lia. lia. }
      destruct (IH (S k) kernel (2 * m)) as (A & B); [lia|lia|]. split; auto. lia.
    + destruct (negotiate_small f kernel (to_int (Z.shiftl m 1)) ltac:(lia)) as (A & B).
      split; auto. lia.
Qed.

Lemma negotiate_grows : forall f kernel m n, 0 < m < 2147483648 ->
  snd (negotiate f kernel m) = NOk n -> 0 < n -> m <= n /\ kernel n = KOk.
Proof.
  induction f as [|f IH]; intros kernel m n H E P; [discriminate|]. rewrite negotiate_S in E.
  assert (U : to_unsigned m = m) by (unfold to_unsigned; apply Z.mod_small; lia).
  rewrite U in E. destruct (kernel m) eqn:K; cbn [snd] in E.
  - injection E as <-. split; [lia|auto].
  - destruct (Z.ltb_spec 1 m); [|discriminate]. cbn [snd] in E.
    destruct (to_int_double m ltac:(lia)) as [(D & L)|D].
    + rewrite D in E. assert (R : 0 < 2 * m < 2147483648) by lia.
      destruct (IH _ _ _ R E P) as (A & B). split; [lia|auto].
    + destruct f as [|f]; [discriminate|]. rewrite negotiate_S in E.
      destruct (kernel (to_unsigned (to_int (Z.shiftl m 1)))); cbn [snd] in E.
      * assert (n = to_int (Z.shiftl m 1)) by congruence. lia.
      * destruct (Z.ltb_spec 1 (to_int (Z.shiftl m 1))); [lia|discriminate].
      * discriminate.
  - discriminate.
Qed.

(** A value that was refused keeps a monotone kernel from granting more. *)
Lemma negotiate_refused : forall f kernel m b n, monotone kernel -> 0 < b <= to_unsigned m ->
  kernel b <> KOk -> m < 2147483648 -> snd (negotiate f kernel m) <> NOk n.
Proof.
  induction f as [|f IH]; intros kernel m b n Mo B K L; [discriminate|]. rewrite negotiate_S.
  destruct (kernel (to_unsigned m)) eqn:E; cbn [snd]; try discriminate.
  { exfalso. apply K. eapply Mo; eauto. }
  destruct (Z.ltb_spec 1 m); [|discriminate]. cbn [snd].
  assert (U : to_unsigned m = m) by (unfold to_unsigned; apply Z.mod_small; lia).
  assert (U2 : to_unsigned (to_int (Z.shiftl m 1)) = 2 * m /\ to_int (Z.shiftl m 1) < 2147483648).
  { unfold to_int, to_unsigned. rewrite Z.shiftl_mul_pow2 by lia. change (2 ^ 1) with 2. split.
    - rewrite Zminus_mod_idemp_l. replace (m * 2 + 2147483648 - 2147483648) with (2 * m) by lia.
      apply Z.mod_small. lia.
    - pose proof (Z.mod_pos_bound (m * 2 + 2147483648) 4294967296 ltac:(lia)). lia. }
  destruct U2 as (U2 & L2). apply (IH _ _ b); auto. rewrite U2. lia.
Qed.

(** ** The table *)

Opaque setup.

Record rinv (s : rstate) : Prop := {
  v_null : forall d, qfind (r_map s) d <> Some None;
  v_uid : forall d q, qfind (r_map s) d = Some (Some q) -> (q_uid q < r_next s)%nat;
  v_inj : forall d e q p, qfind (r_map s) d = Some (Some q) -> qfind (r_map s) e = Some (Some p) ->
    q_uid q = q_uid p -> d = e
}.

Lemma rinv_init : rinv r_init.
Proof. constructor; cbn; intros; discriminate. Qed.

(** What a construction asks for. *)
Definition want (aio : bool) (len : Z) (kernel : Z -> kres) : option qkind :=
  if aio then match snd (setup kernel len) with NOk n => Some (Aio n) | _ => None end else Some Qwqr.

Lemma create_want : forall aio len kernel d s,
  create false aio len kernel d s =
  match want aio len kernel with
  | Some k => (true, MkR ((d, Some (MkQ (r_next s) k)) :: r_map s) (S (r_next s)))
  | None => (false, s)
  end.
Proof.
  intros. unfold create, want. destruct aio; auto. destruct (snd (setup kernel len)); auto.
Qed.

Lemma rinv_fresh : forall s d k, rinv s -> qfind (r_map s) d = None ->
  rinv (MkR ((d, Some (MkQ (r_next s) k)) :: r_map s) (S (r_next s))).
Proof.
  intros s d k I F. constructor; cbn [r_map r_next qfind].
  - intros e. destruct (d =? e); [discriminate|apply I].
  - intros e q. destruct (d =? e).
    + intros E. injection E as <-. cbn. lia.
    + intros E. apply (v_uid _ I) in E. lia.
  - intros e1 e2 q p. destruct (Z.eqb_spec d e1) as [<-|N1]; destruct (Z.eqb_spec d e2) as [<-|N2]; auto.
    + intros E1 E2 U. injection E1 as <-. apply (v_uid _ I) in E2. cbn in U. lia.
    + intros E1 E2 U. injection E2 as <-. apply (v_uid _ I) in E1. cbn in U. lia.
    + apply (v_inj _ I).
Qed.

(** The table after an operation. *)
Definition touches (d : Z) (o : rop) : option qkind := asks d o.

Lemma asks_other : forall d e o k, asks d o = Some k -> d <> e -> asks e o = None.
Proof.
  intros d e o k H N. destruct o as [f kn|[r|] d' kn| | |]; cbn in *; try discriminate.
  - destruct (Z.eqb_spec (f_queue f) d); [|discriminate]. destruct (Z.eqb_spec (f_queue f) e); auto. congruence.
  - destruct (Z.eqb_spec d' d); [|discriminate]. destruct (Z.eqb_spec d' e); auto. congruence.
  - destruct (Z.eqb_spec d' d); [|discriminate]. destruct (Z.eqb_spec d' e); auto. congruence.
Qed.

(** An operation adds at most one entry: of a missing queue it asks for. *)
Lemma rstep_table : forall o s, rinv s ->
  let s' := snd (rstep false o s) in
  (exists d k, asks d o = Some k /\ qfind (r_map s) d = None /\
     s' = MkR ((d, Some (MkQ (r_next s) k)) :: r_map s) (S (r_next s))) \/
  (s' = s /\ forall d k, asks d o = Some k -> qfind (r_map s) d <> None).
Proof.
  intros o s I. destruct o as [f kn|r d kn|r d|d|]; cbn [rstep].
  - unfold make_queue. destruct (qfind (r_map s) (f_queue f)) as [v|] eqn:F.
    + right. split; auto. intros d k A. cbn in A. destruct (Z.eqb_spec (f_queue f) d); [|discriminate]. congruence.
    + rewrite create_want. destruct (want (f_aio f) (f_len f) kn) as [k|] eqn:Wk; cbn [snd].
      * left. exists (f_queue f), k. csplit; auto. cbn. rewrite Z.eqb_refl. exact Wk.
      * right. split; auto. intros d k A. cbn in A. destruct (f_queue f =? d); [|discriminate].
        change (want (f_aio f) (f_len f) kn = Some k) in A. congruence.
  - unfold add_request. destruct (qfind (r_map s) d) as [v|] eqn:F.
    + right. split; auto. intros e k A. destruct r as [r|]; cbn in A; destruct (Z.eqb_spec d e); congruence.
    + rewrite create_want. destruct (want (is_aio r) (len_of r) kn) as [k|] eqn:Wk; cbn [snd].
      * left. exists d, k. csplit; auto. destruct r as [r|]; cbn; rewrite Z.eqb_refl; exact Wk.
      * right. split; auto. intros e k A. destruct r as [r|]; cbn in A.
        -- destruct (d =? e); [|discriminate]. change (want (rq_aio r) (rq_len r) kn = Some k) in A.
           cbn in Wk. congruence.
        -- discriminate.
  - right. split; auto. cbn. discriminate.
  - right. split; auto. cbn. discriminate.
  - right. split; auto. cbn. discriminate.
Qed.

Lemma rinv_step : forall o s, rinv s -> rinv (snd (rstep false o s)).
Proof.
  intros o s I. destruct (rstep_table o s I) as [(d & k & A & F & ->)|(-> & _)]; auto.
  apply rinv_fresh; auto.
Qed.

Lemma rstep_mono : forall o s d v, rinv s -> qfind (r_map s) d = Some v ->
  qfind (r_map (snd (rstep false o s))) d = Some v.
Proof.
  intros o s d v I F. destruct (rstep_table o s I) as [(e & k & A & Fe & ->)|(-> & _)]; auto.
  cbn. destruct (Z.eqb_spec e d); auto. congruence.
Qed.

Lemma rrun_snd : forall ops o s, rrun false (ops ++ [o]) s =
  (fst (rrun false ops s) ++ [fst (rstep false o (snd (rrun false ops s)))], snd (rstep false o (snd (rrun false ops s)))).
Proof.
  induction ops as [|x ops IH]; cbn [app rrun]; intros o s.
  - cbn [fst snd app]. destruct (rstep false o s). reflexivity.
  - destruct (rstep false x s) as [y s1]. specialize (IH o s1).
    rewrite IH. destruct (rrun false ops s1) as [c e]. reflexivity.
Qed.

Lemma rinv_run : forall ops s, rinv s -> rinv (snd (rrun false ops s)).
Proof.
  induction ops as [|o ops IH]; cbn [rrun]; intros s I; auto.
  pose proof (rinv_step o s I) as I1. destruct (rstep false o s) as [x s1]. cbn [snd] in *.
  specialize (IH s1 I1). destruct (rrun false ops s1). auto.
Qed.

Lemma rrun_mono : forall ops s d v, rinv s -> qfind (r_map s) d = Some v ->
  qfind (r_map (snd (rrun false ops s))) d = Some v.
Proof.
  induction ops as [|o ops IH]; cbn [rrun]; intros s d v I F; auto.
  pose proof (rstep_mono o s d v I F) as F1. pose proof (rinv_step o s I) as I1.
  destruct (rstep false o s) as [x s1]. cbn [snd] in *.
  specialize (IH s1 d v I1 F1). destruct (rrun false ops s1). auto.
Qed.

Lemma decided_app : forall d a b, decided d (a ++ b) = match decided d a with Some k => Some k | None => decided d b end.
Proof. induction a as [|o a IH]; cbn; intros; auto. destruct (asks d o); auto. Qed.

(** The kind of a queue is what the first operation asked for. *)
Lemma kind_decided : forall ops d, option_map q_kind (match qfind (r_map (snd (rrun false ops r_init))) d with
    Some (Some q) => Some q | _ => None end) = decided d ops.
Proof.
  intros ops d. induction ops as [|o ops IH] using rev_ind; [reflexivity|].
  rewrite rrun_snd, decided_app. cbn [snd]. set (s := snd (rrun false ops r_init)) in *.
  assert (I : rinv s) by (apply rinv_run, rinv_init).
  destruct (rstep_table o s I) as [(e & k & A & Fe & ->)|(-> & N)].
  - cbn [r_map qfind]. destruct (Z.eqb_spec e d) as [<-|Ne].
    + rewrite Fe in IH. cbn in IH. rewrite <- IH. cbn. rewrite A. auto.
    + rewrite IH. destruct (decided d ops) eqn:D; auto. cbn. rewrite (asks_other _ _ _ _ A Ne). auto.
  - rewrite IH. destruct (decided d ops) eqn:D; auto. cbn. destruct (asks d o) as [k|] eqn:A; auto.
    exfalso. specialize (N d k A). pose proof (v_null _ I d) as Nu.
    destruct (qfind (r_map s) d) as [[q|]|]; cbn in IH; congruence.
Qed.

(** The queue named by a result is the queue of the disk afterwards. *)
Lemma named_queue : forall o s d u, rinv s -> about o = Some d -> served_by (fst (rstep false o s)) = Some u ->
  exists q, qfind (r_map (snd (rstep false o s))) d = Some (Some q) /\ q_uid q = u.
Proof.
  intros o s d u I A S. destruct o as [f kn|r d' kn|r d'|d'|]; try discriminate; injection A as ->; cbn [rstep] in *.
  - assert (G : forall s1, served_by (match qfind (r_map s1) d with Some (Some q) => q_add q r | _ => RCrash end) = Some u ->
      exists q, qfind (r_map s1) d = Some (Some q) /\ q_uid q = u).
    { intros s1 H. destruct (qfind (r_map s1) d) as [[q|]|]; try discriminate. exists q. split; auto.
      unfold q_add in H. destruct r as [r|]; [|discriminate].
      destruct (q_kind q); [|destruct (rq_aio r)]; cbn in H; congruence. }
    unfold add_request in *. destruct (qfind (r_map s) d) as [v|] eqn:F.
    + cbn [fst snd] in *. apply G. rewrite F. exact S.
    + rewrite create_want in *. destruct (want (is_aio r) (len_of r) kn); cbn [fst snd] in *; [|discriminate].
      apply G. exact S.
  - cbn [fst snd] in *. unfold cancel_request in S. destruct (qfind (r_map s) d) as [[q|]|]; try discriminate.
    exists q. split; auto. unfold q_cancel in S. destruct r as [r|]; [|discriminate].
    destruct (q_kind q); [|destruct (rq_aio r)]; cbn in S; congruence.
  - cbn [fst snd] in *. unfold get_queue in S. destruct (qfind (r_map s) d) as [[q|]|]; try discriminate.
    exists q. split; auto. cbn in S. congruence.
Qed.

(** Each named queue is in the final table. *)
Lemma named_final : forall ops s i o x d u, rinv s ->
  nth_error ops i = Some o -> nth_error (fst (rrun false ops s)) i = Some x ->
  about o = Some d -> served_by x = Some u ->
  exists q, qfind (r_map (snd (rrun false ops s))) d = Some (Some q) /\ q_uid q = u.
Proof.
  induction ops as [|o ops IH]; intros s i p x d u I O X A S; [destruct i; discriminate|].
  cbn [rrun] in *. pose proof (rinv_step o s I) as I1.
  destruct i as [|i]; cbn in O.
  - injection O as <-. pose proof (named_queue o s d u I A) as N.
    destruct (rstep false o s) as [y s1]. cbn [fst snd] in *.
    pose proof (rrun_mono ops s1) as M. destruct (rrun false ops s1) as [ys s2]. cbn [fst snd] in *.
    cbn in X. injection X as <-. destruct (N S) as (q & Q & U). exists q. split; auto.
  - destruct (rstep false o s) as [y s1]. cbn [fst snd] in *.
    specialize (IH s1 i p x d u I1 O). destruct (rrun false ops s1) as [ys s2]. cbn [fst snd] in *.
    apply IH; auto.
Qed.

(** ** Block manager *)

Lemma open_run : forall fs kernel s, fst (open_disks false fs kernel s) = true ->
  snd (open_disks false fs kernel s) = snd (rrun false (map (fun f => OMake f kernel) fs) s).
Proof.
  induction fs as [|f fs IH]; cbn [open_disks map rrun rstep]; intros kernel s H; auto.
  destruct (make_queue false f kernel s) as [x s1] eqn:M. destruct x; try discriminate.
  rewrite IH by auto. destruct (rrun false (map (fun f0 => OMake f0 kernel) fs) s1). auto.
Qed.

(** With one exception-free pass the order of evaluation does not matter. *)
Lemma open_same : forall fs kernel s, fst (open_disks true fs kernel s) = true ->
  open_disks false fs kernel s = open_disks true fs kernel s.
Proof.
  induction fs as [|f fs IH]; cbn [open_disks]; intros kernel s H; auto.
  assert (E : make_queue false f kernel s = make_queue true f kernel s \/
              fst (make_queue true f kernel s) = RThrow).
  { unfold make_queue. destruct (qfind (r_map s) (f_queue f)); auto. unfold create.
    destruct (f_aio f); auto. destruct (snd (setup kernel (f_len f))); auto. }
  destruct E as [->|E].
  - destruct (make_queue true f kernel s) as [x s1]. destruct x; auto.
  - destruct (make_queue true f kernel s) as [x s1]. cbn in E. subst. discriminate.
Qed.

Lemma open_asked : forall fs kernel s f, rinv s -> fst (open_disks false fs kernel s) = true -> In f fs ->
  exists q, qfind (r_map (snd (open_disks false fs kernel s))) (f_queue f) = Some (Some q).
Proof.
  induction fs as [|g fs IH]; intros kernel s f I H In1; [destruct In1|].
  cbn [open_disks] in *. pose proof (rinv_step (OMake g kernel) s I) as I1. cbn [rstep] in I1.
  destruct (make_queue false g kernel s) as [x s1] eqn:M. cbn [snd] in I1.
  destruct x; try discriminate. destruct In1 as [<-|In1]; [|apply IH; auto].
  assert (Q : exists q, qfind (r_map s1) (f_queue g) = Some (Some q)).
  { unfold make_queue in M. destruct (qfind (r_map s) (f_queue g)) as [v|] eqn:F.
    - injection M as <-. pose proof (v_null _ I (f_queue g)) as N. rewrite F in *. destruct v; [eauto|congruence].
    - rewrite create_want in M. destruct (want _ _ _); [|discriminate]. injection M as <-.
      cbn. rewrite Z.eqb_refl. eauto. }
  destruct Q as (q & Q). exists q. rewrite open_run by auto. apply rrun_mono; auto.
Qed.

Lemma disk_files_nth : forall cs i k c, nth_error cs i = Some c ->
  nth_error (disk_files cs k) i = Some (disk_file c (k + i)).
Proof.
  induction cs as [|c0 cs IH]; intros [|i] k c H; try discriminate; cbn in *.
  - injection H as ->. rewrite Nat.add_0_r. auto.
  - rewrite (IH i (S k) c H). do 2 f_equal. lia.
Qed.

Lemma disk_files_in : forall cs k f, In f (disk_files cs k) ->
  exists i c, nth_error cs i = Some c /\ f = disk_file c (k + i).
Proof.
  induction cs as [|c0 cs IH]; cbn; intros k f H; [tauto|]. destruct H as [<-|H].
  - exists 0%nat, c0. rewrite Nat.add_0_r. auto.
  - destruct (IH _ _ H) as (i & c & N & E). exists (S i), c. split; auto. rewrite E. f_equal. lia.
Qed.

Lemma decided_in : forall d fs kernel k, decided d (map (fun f => OMake f kernel) fs) = Some k ->
  exists f, In f fs /\ f_queue f = d /\ want (f_aio f) (f_len f) kernel = Some k.
Proof.
  induction fs as [|f fs IH]; cbn [map decided]; intros kernel k H; [discriminate|].
  destruct (asks d (OMake f kernel)) as [k'|] eqn:A.
  - injection H as ->. cbn in A. destruct (Z.eqb_spec (f_queue f) d); [|discriminate].
    exists f. csplit; auto. left; auto.
  - destruct (IH _ _ H) as (g & G1 & G2 & G3). exists g. csplit; auto. right; auto.
Qed.
