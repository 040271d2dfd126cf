(* A start that is repeated after a failure (C105). *)
From Coq Require Import String Ascii List Arith Bool ZArith Lia.
From Verif Require Import ConfigModel BootModel BootSpec BootProofs.
Import ListNotations.
Local Open Scope list_scope.

Notation D := DEFAULT_DEVICE_ID.

Definition typed (ds : list disk) : Prop := forall d, In d ds -> (0 <= device_id d <= D)%Z.

(* No disk without an id comes before a disk with the last id there is. *)
Fixpoint guarded (ds : list disk) : Prop :=
  match ds with
  | [] => True
  | d :: ds => device_id d <> D /\ (device_id d = (D - 1)%Z \/ guarded ds)
  end.

Definition safe (m : Z) (ds : list disk) : Prop :=
  (0 <= m <= D)%Z /\ typed ds /\ (m = D -> guarded ds).

(* What happens to the counter when a disk gets its id. *)
Lemma take_cases : forall m dev, (0 <= m <= D)%Z -> (0 <= dev <= D)%Z ->
  (dev = D /\ m = D /\ take_id m dev = (D, 0%Z))
  \/ (dev = D /\ (m < D)%Z /\ take_id m dev = (m, (m + 1)%Z))
  \/ ((dev < D)%Z /\ take_id m dev = (dev, Z.max m (dev + 1))).
Proof.
  intros m dev M E. unfold take_id, DEFAULT_DEVICE_ID in *.
  destruct (dev =? 2 ^ 32 - 1)%Z eqn:Q; [apply Z.eqb_eq in Q|apply Z.eqb_neq in Q].
  - destruct (Z.eq_dec m (2 ^ 32 - 1)) as [->|N].
    + left. repeat split; try lia.
    + right. left. rewrite Z.mod_small by lia. repeat split; lia.
  - right. right. rewrite Z.mod_small by lia. split; [lia|]. f_equal.
    destruct (m <? dev + 1)%Z eqn:L; [apply Z.ltb_lt in L|apply Z.ltb_ge in L]; lia.
Qed.

Lemma take_range : forall m dev, (0 <= m <= D)%Z -> (0 <= dev <= D)%Z ->
  (0 <= fst (take_id m dev) <= D)%Z /\ (0 <= snd (take_id m dev) <= D)%Z.
Proof.
  intros m dev M E.
  destruct (take_cases m dev M E) as [(? & ? & ->)|[(? & ? & ->)|(? & ->)]]; cbn [fst snd];
    unfold DEFAULT_DEVICE_ID in *; lia.
Qed.

(* The same counter gives the same id again. *)
Lemma take_sync : forall m dev, (0 <= m <= D)%Z -> (0 <= dev <= D)%Z ->
  take_id m (fst (take_id m dev)) = take_id m dev.
Proof.
  intros m dev M E.
  destruct (take_cases m dev M E) as [(-> & -> & X)|[(-> & L & X)|(L & X)]]; rewrite X; cbn [fst].
  - assumption.
  - destruct (take_cases m m M M) as [(A & _)|[(A & _)|(_ & ->)]]; try lia. f_equal. lia.
  - assumption.
Qed.

Section Retry.
Variable device : str -> option Z.
Notation go := (go device).
Notation eff := (eff device).
Notation finished := (finished device).
Notation partial := (partial device).
Notation alike := (alike device).

(* Everything but the files. *)
Definition same (x y : option (nat * bool) * list opened * list disk * Z * files) : Prop :=
  match x, y with
  | (r, os, ds, m, _), (r', os', ds', m', _) => r = r' /\ (r = None -> os = os' /\ ds = ds' /\ m = m')
  end.

Lemma go_files : forall ds i e m f g, same (go i e ds m f) (go i e ds m g).
Proof.
  induction ds as [|d ds IH]; intros i e m f g; cbn [BootProofs.go]; [cbn; auto|].
  destruct (openbad device (e i) d); [cbn; auto|].
  destruct (latebad device (e i) d); [cbn; auto|].
  specialize (IH (S i) e (snd (take_id m (device_id d))) (eff d f) (eff d g)).
  destruct (go (S i) e ds _ (eff d f)) as [[[[r os] ds1] m1] f1].
  destruct (go (S i) e ds _ (eff d g)) as [[[[r' os'] ds1'] m1'] f1'].
  cbn in *. destruct IH as [-> IH]. split; [reflexivity|]. intros N.
  destruct (IH N) as (-> & -> & ->). auto.
Qed.

Lemma finished_id : forall i d id, device_id (finished i d id) = id.
Proof.
  intros. unfold BootProofs.finished. pose proof (numbered_fields i d id) as (_ & _ & C & _).
  destruct (device (path d)); [destruct (ischecked d)|]; cbn; assumption.
Qed.

Lemma partial_id : forall a i d id, device_id (partial a i d id) = id.
Proof.
  intros. unfold BootProofs.partial. pose proof (numbered_fields i d id) as (_ & _ & C & _).
  destruct (isdev device d); [destruct a|]; cbn; assumption.
Qed.

Lemma ready_same : forall i d d' id, alike d d' -> finished i d' id = finished i d id ->
  ready_file device i d' id = ready_file device i d id.
Proof.
  intros i d d' id A F. destruct (alike_same _ _ _ A) as (_ & _ & N & Z & _).
  unfold ready_file. rewrite F, N, Z. reflexivity.
Qed.

(* A disk that has been prepared before, then the rest. *)
Lemma go_prepared : forall i e d d' ds ds' n id m f g,
  alike d d' -> device_id d' = id -> finished i d' id = finished i d id ->
  fst (take_id m (device_id d)) = id -> fst (take_id n id) = id ->
  (forall f g, same (go (S i) e ds (snd (take_id m (device_id d))) f) (go (S i) e ds' (snd (take_id n id)) g)) ->
  same (go i e (d :: ds) m f) (go i e (d' :: ds') n g).
Proof.
  intros i e d d' ds ds' n id m f g A I F T T1 R. cbn [BootProofs.go].
  rewrite I, T1, T.
  destruct (alike_same _ _ _ A) as (OB & LB & N & Z & LO & OF & EF).
  rewrite OB, LB.
  destruct (openbad device (e i) d); [cbn; rewrite LO; split; [reflexivity|discriminate]|].
  destruct (latebad device (e i) d); [cbn; split; [reflexivity|discriminate]|].
  rewrite F, (ready_same _ _ _ _ A F).
  specialize (R (eff d f) (eff d' g)).
  destruct (go (S i) e ds _ (eff d f)) as [[[[r os] ds1] mm] f1].
  destruct (go (S i) e ds' _ (eff d' g)) as [[[[r' os'] ds1'] mm'] f1'].
  cbn in *. destruct R as [-> R]. split; [reflexivity|]. intros X.
  destruct (R X) as (-> & -> & ->). auto.
Qed.

(* Whether the counter starts anew before the failure. *)
Fixpoint wraps (i : nat) (e : nat -> attempt) (ds : list disk) (m : Z) : bool :=
  match ds with
  | [] => false
  | d :: ds =>
      ((device_id d =? D)%Z && (m =? D)%Z)
      || (if openbad device (e i) d || latebad device (e i) d then false
          else wraps (S i) e ds (snd (take_id m (device_id d))))
  end.

(* Without that the counter only grows. *)
Lemma wraps_mono : forall ds i e m f r os ds1 m1 f1,
  go i e ds m f = (r, os, ds1, m1, f1) -> (0 <= m <= D)%Z -> typed ds ->
  wraps i e ds m = false -> (m <= m1 <= D)%Z.
Proof.
  induction ds as [|d ds IH]; intros i e m f r os ds1 m1 f1 G M T W; cbn [BootProofs.go] in G.
  - injection G as <- <- <- <- <-. lia.
  - cbn [wraps] in W. apply orb_false_iff in W. destruct W as [W1 W2].
    assert (E : (0 <= device_id d <= D)%Z) by (apply T; left; reflexivity).
    pose proof (take_range m _ M E) as [R1 R2].
    assert (L : (m <= snd (take_id m (device_id d)))%Z).
    { destruct (take_cases m _ M E) as [(A & B & C)|[(A & B & C)|(B & C)]].
      - rewrite A, B, Z.eqb_refl in W1. discriminate.
      - rewrite C. cbn. lia.
      - rewrite C. cbn [snd]. lia. }
    destruct (openbad device (e i) d); [injection G as <- <- <- <- <-; lia|].
    destruct (latebad device (e i) d); [injection G as <- <- <- <- <-; lia|].
    destruct (go (S i) e ds _ (eff d f)) as [[[[r' os'] ds'] m''] f''] eqn:GG.
    injection G as <- <- <- <- <-.
    assert (X : (snd (take_id m (device_id d)) <= m'' <= D)%Z).
    { eapply IH; [exact GG|assumption| |assumption]. intros x X. apply T. right. assumption. }
    lia.
Qed.

Lemma alike_refl : forall ds, Forall2 alike ds ds.
Proof. induction ds as [|x l0 IH]; constructor; auto. unfold BootProofs.alike. auto 10. Qed.

(* The disks that a failed start leaves. *)
Lemma failed_typed : forall ds i e m f k l os ds1 m1 f1,
  go i e ds m f = (Some (k, l), os, ds1, m1, f1) -> (0 <= m <= D)%Z -> typed ds ->
  (0 <= m1 <= D)%Z /\ typed ds1 /\ Forall2 alike ds ds1.
Proof.
  induction ds as [|d ds IH]; intros i e m f k l os ds1 m1 f1 G M T; [discriminate|].
  cbn [BootProofs.go] in G.
  assert (E : (0 <= device_id d <= D)%Z) by (apply T; left; reflexivity).
  assert (T' : typed ds) by (intros x X; apply T; right; assumption).
  destruct (take_range m _ M E) as [R1 R2].
  destruct (openbad device (e i) d).
  { injection G as <- <- <- <- <- <-. split; [assumption|].
    split; [|constructor; [apply partial_alike|apply alike_refl]].
    intros x [<-|X]; [rewrite partial_id; assumption|auto]. }
  destruct (latebad device (e i) d).
  { injection G as <- <- <- <- <- <-. split; [assumption|].
    split; [|constructor; [apply finished_alike|apply alike_refl]].
    intros x [<-|X]; [rewrite finished_id; assumption|auto]. }
  destruct (go (S i) e ds _ (eff d f)) as [[[[r os'] ds'] m''] f''] eqn:GG.
  injection G as -> <- <- <- <-.
  destruct (IH _ _ _ _ _ _ _ _ _ _ GG R2 T') as (A & B & C).
  split; [assumption|]. split; [|constructor; [apply finished_alike|assumption]].
  intros x [<-|X]; [rewrite finished_id; assumption|auto].
Qed.

(* One disk gets its id, and the counter is safe. *)
Lemma safe_step : forall m d ds, safe m (d :: ds) ->
  let id := fst (take_id m (device_id d)) in
  let m' := snd (take_id m (device_id d)) in
  (id = (D - 1)%Z /\ m' = D) \/ ((id < D - 1)%Z /\ safe m' ds).
Proof.
  intros m d ds (M & T & S). cbn zeta.
  assert (E : (0 <= device_id d <= D)%Z) by (apply T; left; reflexivity).
  assert (T' : typed ds) by (intros x X; apply T; right; assumption).
  destruct (take_cases m _ M E) as [(A & B & C)|[(A & B & C)|(B & C)]].
  - destruct (S B) as [X _]. contradiction.
  - rewrite C. cbn [fst snd]. destruct (Z.eq_dec m (D - 1)); [left; lia|].
    right. split; [lia|]. split; [lia|]. split; [assumption|lia].
  - rewrite C. cbn [fst snd]. destruct (Z.eq_dec (device_id d) (D - 1)) as [N|N]; [left; lia|].
    right. split; [lia|]. split; [lia|]. split; [assumption|].
    intros X. assert (Q : m = D) by lia. destruct (S Q) as [_ [Z|Z]]; [contradiction|assumption].
Qed.

Lemma failed_guarded : forall ds i e m f k l os ds1 m1 f1,
  go i e ds m f = (Some (k, l), os, ds1, m1, f1) -> safe m ds -> m1 = D -> guarded ds1.
Proof.
  induction ds as [|d ds IH]; intros i e m f k l os ds1 m1 f1 G S1 X; [discriminate|].
  cbn [BootProofs.go] in G. pose proof (safe_step _ _ _ S1) as K. cbn zeta in K.
  destruct (openbad device (e i) d).
  { injection G as <- <- <- <- <- <-. cbn [guarded]. rewrite partial_id.
    destruct K as [[-> _]|[K (_ & _ & K2)]]; split; try lia; auto. }
  destruct (latebad device (e i) d).
  { injection G as <- <- <- <- <- <-. cbn [guarded]. rewrite finished_id.
    destruct K as [[-> _]|[K (_ & _ & K2)]]; split; try lia; auto. }
  destruct (go (S i) e ds _ (eff d f)) as [[[[r os'] ds'] m''] f''] eqn:GG.
  injection G as -> <- <- <- <-. cbn [guarded]. rewrite finished_id.
  destruct K as [[-> _]|[K K2]]; split; try lia; auto.
  right. eapply IH; eassumption.
Qed.

(* The start after a failure, when the counter of both is the same (whatever it
   is), when it has only grown before the failure, or when it starts anew. *)
Lemma retry_from : forall ds i e m f k l os ds1 m1 f1 n,
  go i e ds m f = (Some (k, l), os, ds1, m1, f1) -> (0 <= m <= D)%Z -> typed ds -> (0 <= n <= D)%Z ->
  (n = m \/ (wraps i e ds m = false /\ n = m1) \/ (wraps i e ds m = true /\ safe m ds)) ->
  forall e2 f2 f3, same (go i e2 ds m f2) (go i e2 ds1 n f3).
Proof.
  induction ds as [|d ds IH]; intros i e m f k l os ds1 m1 f1 n G M T NR C e2 f2 f3; [discriminate|].
  cbn [BootProofs.go] in G.
  assert (E : (0 <= device_id d <= D)%Z) by (apply T; left; reflexivity).
  assert (T' : typed ds) by (intros x X; apply T; right; assumption).
  destruct (take_range m _ M E) as [R1 R2].
  set (id := fst (take_id m (device_id d))) in *.
  set (m' := snd (take_id m (device_id d))) in *.
  (* the id is taken again, and then the counters are related as before *)
  assert (K : fst (take_id n id) = id
    /\ (snd (take_id n id) = m'
        \/ (openbad device (e i) d || latebad device (e i) d = false
            /\ ((wraps (S i) e ds m' = false /\ snd (take_id n id) = m1)
                \/ (wraps (S i) e ds m' = true /\ safe m' ds))))).
  { destruct C as [->|[(W & N)|(W & S1)]].
    - unfold id. rewrite take_sync by assumption. auto.
    - assert (L : (id < m' <= m1)%Z /\ (id < D)%Z
                  /\ (openbad device (e i) d || latebad device (e i) d = true -> m1 = m')).
      { cbn [wraps] in W. fold m' in W. apply orb_false_iff in W. destruct W as [W1 W2].
        assert (Q : (id < m')%Z /\ (id < D)%Z).
        { unfold id, m' in *.
          destruct (take_cases m _ M E) as [(A & B & C)|[(A & B & C)|(B & C)]].
          - rewrite A, B, Z.eqb_refl in W1. discriminate.
          - rewrite C. cbn [fst snd]. lia.
          - rewrite C. cbn [fst snd]. lia. }
        destruct (openbad device (e i) d); cbn [orb] in *.
        { injection G as _ _ _ _ <- _. split; [lia|]. split; [lia|auto]. }
        destruct (latebad device (e i) d); cbn [orb] in *.
        { injection G as _ _ _ _ <- _. split; [lia|]. split; [lia|auto]. }
        destruct (go (S i) e ds m' (eff d f)) as [[[[r os'] ds'] m''] f''] eqn:GG.
        injection G as -> <- <- <- <-.
        pose proof (wraps_mono _ _ _ _ _ _ _ _ _ _ GG R2 T' W2). split; [lia|]. split; [lia|discriminate]. }
      destruct L as (L1 & L2 & L3).
      assert (Y : take_id n id = (id, n)).
      { destruct (take_cases n id NR R1) as [(A & _)|[(A & _)|(_ & ->)]]; try lia. f_equal. lia. }
      rewrite Y. cbn [fst snd]. split; [reflexivity|].
      destruct (openbad device (e i) d || latebad device (e i) d) eqn:O.
      + left. rewrite N. auto.
      + right. split; [reflexivity|]. left. cbn [wraps] in W. rewrite O in W. fold m' in W.
        apply orb_false_iff in W. destruct W. auto.
    - pose proof (safe_step _ _ _ S1) as K. cbn zeta in K. fold id m' in K.
      assert (L : (id < D)%Z) by (destruct K as [[K _]|[K _]]; lia).
      assert (Y : take_id n id = (id, Z.max n (id + 1))).
      { destruct (take_cases n id NR R1) as [(A & _)|[(A & _)|(_ & Y)]]; try lia. assumption. }
      rewrite Y. cbn [fst snd]. split; [reflexivity|].
      destruct K as [[K1 K2]|[K1 K2]]; [left; lia|]. right.
      cbn [wraps] in W. fold m' in W.
      assert (Z0 : (device_id d =? D)%Z && (m =? D)%Z = false).
      { destruct (device_id d =? D)%Z eqn:Q1; [|reflexivity]. destruct (m =? D)%Z eqn:Q2; [|reflexivity].
        apply Z.eqb_eq in Q1. apply Z.eqb_eq in Q2. destruct S1 as (_ & _ & S1). destruct (S1 Q2). contradiction. }
      rewrite Z0 in W. cbn [orb] in W.
      destruct (openbad device (e i) d || latebad device (e i) d); [discriminate|]. auto. }
  destruct K as (K1 & K2). destruct (take_range n id NR R1) as [_ R3].
  destruct (openbad device (e i) d) eqn:OB.
  { injection G as <- <- <- <- <- <-. destruct K2 as [K2|(K2 & _)]; [|discriminate].
    eapply (go_prepared i e2 d (partial (e i) i d id) ds ds n id).
    - apply partial_alike.
    - apply partial_id.
    - apply finished_partial.
    - reflexivity.
    - assumption.
    - intros. rewrite K2. apply go_files. }
  destruct (latebad device (e i) d) eqn:LB.
  { injection G as <- <- <- <- <- <-. destruct K2 as [K2|(K2 & _)]; [|discriminate].
    eapply (go_prepared i e2 d (finished i d id) ds ds n id).
    - apply finished_alike.
    - apply finished_id.
    - apply finished_idem.
    - reflexivity.
    - assumption.
    - intros. rewrite K2. apply go_files. }
  destruct (go (S i) e ds m' (eff d f)) as [[[[r os'] ds'] m''] f''] eqn:GG.
  injection G as -> <- <- <- <-.
  eapply (go_prepared i e2 d (finished i d id) ds ds' n id).
  - apply finished_alike.
  - apply finished_id.
  - apply finished_idem.
  - reflexivity.
  - assumption.
  - intros. eapply (IH (S i) e m' (eff d f)); [exact GG|assumption|assumption|assumption|].
    destruct K2 as [K2|(_ & K2)]; [left; assumption|right; assumption].
Qed.

Lemma retry_go : forall ds i e m f k l os ds1 m1 f1,
  go i e ds m f = (Some (k, l), os, ds1, m1, f1) -> safe m ds ->
  safe m1 ds1 /\ Forall2 alike ds ds1
  /\ forall e2 f2 f3, same (go i e2 ds m f2) (go i e2 ds1 m1 f3).
Proof.
  intros ds i e m f k l os ds1 m1 f1 G S1. pose proof S1 as (M & T & _).
  destruct (failed_typed _ _ _ _ _ _ _ _ _ _ _ G M T) as (M1 & T1 & A).
  split; [split; [assumption|]; split; [assumption|]; eapply failed_guarded; eassumption|].
  split; [assumption|].
  eapply retry_from; try eassumption.
  destruct (wraps i e ds m); auto.
Qed.

(* The files *)
Definition effs (ds : list disk) (f : files) : files := fold_left (fun f d => eff d f) ds f.

Lemma go_effs : forall ds i e m f os ds1 m1 f1,
  go i e ds m f = (None, os, ds1, m1, f1) -> f1 = effs ds f.
Proof.
  induction ds as [|d ds IH]; intros i e m f os ds1 m1 f1 G; cbn [BootProofs.go] in G.
  - injection G as _ _ _ <-. reflexivity.
  - destruct (openbad device (e i) d); [discriminate|].
    destruct (latebad device (e i) d); [discriminate|].
    destruct (go (S i) e ds _ (eff d f)) as [[[[r os'] ds'] m''] f''] eqn:GG.
    injection G as -> <- <- <- <-. cbn. eapply IH. exact GG.
Qed.

Lemma effs_alike : forall ds ds', Forall2 alike ds ds' -> forall f, effs ds' f = effs ds f.
Proof.
  induction 1 as [|d d' ds ds' A R IH]; intros f; [reflexivity|].
  cbn. destruct (alike_same _ _ _ A) as (_ & _ & _ & _ & _ & _ & EF). rewrite EF. apply IH.
Qed.

(* How a disk changes the name p when it gets ready: not, by creating it, or
   whatever it was. *)
Definition cls (d : disk) (p : str) : nat :=
  if isufs d then
    if seq (path d) p then
      match device (path d) with
      | Some _ => 0
      | None => if unlink_on_open d || negb (fsize device d =? 0)%Z then 2 else 1
      end
    else 0
  else if isperblock d then (if seq (lock_name (path d)) p then 2 else 0) else 0.

Lemma open_name_dev : forall f p n, device p = Some n -> open_name device f p = f.
Proof. intros. unfold open_name. rewrite H. reflexivity. Qed.

Lemma open_name_file : forall f p, device p = None -> open_name device f p = touch f p.
Proof. intros. unfold open_name. rewrite H. reflexivity. Qed.

Lemma open_name_other : forall f p q, p <> q -> open_name device f p q = f q.
Proof. intros. unfold open_name. destruct (device p); [reflexivity|]. apply touch_other. assumption. Qed.

Lemma unlinked_file : forall d, isufs d = true -> device (path d) = None -> unlinked device d = unlink_on_open d.
Proof. intros d U N. unfold unlinked. rewrite U, N, andb_true_r. reflexivity. Qed.

Lemma unlinked_device : forall d n, device (path d) = Some n -> unlinked device d = false.
Proof. intros d n N. unfold unlinked. rewrite N. apply andb_false_r. Qed.

Lemma opened_cls : forall d f p,
  (cls d p = 0 -> opened_files device d f p = f p)
  /\ (cls d p = 1 -> opened_files device d f p = made (f p)).
Proof.
  intros d f p. unfold cls, opened_files. destruct (isufs d) eqn:U.
  - destruct (seq (path d) p) eqn:E.
    + apply seq_eq in E. subst p. destruct (device (path d)) as [n|] eqn:D.
      * rewrite (unlinked_device _ _ D), (open_name_dev _ _ _ D). split; [reflexivity|discriminate].
      * rewrite (unlinked_file _ U D), (open_name_file _ _ D).
        destruct (unlink_on_open d); cbn [orb]; [split; discriminate|].
        destruct (fsize device d =? 0)%Z; cbn [negb]; split; try discriminate. intros _. apply touch_same.
    + assert (N : path d <> p) by (intros X; apply seq_eq in X; congruence).
      split; [intros _|discriminate].
      destruct (unlinked device d); rewrite ?put_other by assumption; apply open_name_other; assumption.
  - destruct (isperblock d); [|split; [reflexivity|discriminate]].
    destruct (seq (lock_name (path d)) p) eqn:E; [split; discriminate|].
    assert (N : lock_name (path d) <> p) by (intros X; apply seq_eq in X; congruence).
    split; [intros _|discriminate]. apply put_other. assumption.
Qed.

Lemma set_size_other : forall d n z f p, (isufs d = true -> n <> Some p) -> set_size device d n z f p = f p.
Proof.
  intros d n z f p H. unfold set_size, isufs in *.
  destruct (impl_of d); try reflexivity;
    (destruct n as [q|]; [|reflexivity]; destruct (device q); [reflexivity|]; apply put_other;
     specialize (H eq_refl); congruence).
Qed.

Lemma eff_cls : forall d p,
  match cls d p with
  | 0 => forall f, eff d f p = f p
  | 1 => forall f, eff d f p = made (f p)
  | _ => forall f g, eff d f p = eff d g p
  end.
Proof.
  intros d p.
  assert (O : forall f, isufs d = false \/ path d <> p -> eff d f p = opened_files device d f p).
  { intros f H. unfold BootProofs.eff. destruct (fsize device d =? 0)%Z; [reflexivity|].
    apply set_size_other. intros U. destruct H as [H|H]; [congruence|].
    unfold name_of. rewrite U. destruct (unlinked device d); congruence. }
  destruct (isufs d) eqn:U.
  - destruct (seq (path d) p) eqn:E.
    + apply seq_eq in E. subst p.
      unfold cls. rewrite U, seq_refl. destruct (device (path d)) as [n|] eqn:D.
      * intros f. unfold BootProofs.eff, opened_files. rewrite U, (unlinked_device _ _ D), (open_name_dev _ _ _ D).
        destruct (fsize device d =? 0)%Z; [reflexivity|].
        unfold set_size, name_of. rewrite U, (unlinked_device _ _ D), D.
        destruct (impl_of d); reflexivity.
      * unfold BootProofs.eff, opened_files, name_of. rewrite U, (unlinked_file _ U D).
        destruct (unlink_on_open d); cbn [orb].
        -- intros f g. destruct (fsize device d =? 0)%Z; [rewrite !put_same; reflexivity|].
           unfold set_size. destruct (impl_of d); rewrite !put_same; reflexivity.
        -- destruct (fsize device d =? 0)%Z; cbn [negb].
           ++ intros f. rewrite open_name_file by assumption. apply touch_same.
           ++ intros f g. unfold set_size. rewrite D. unfold isufs in U.
              destruct (impl_of d); try discriminate; rewrite !put_same; reflexivity.
    + assert (N : path d <> p) by (intros X; apply seq_eq in X; congruence).
      unfold cls. rewrite U, E. intros f. rewrite O by auto. apply opened_cls.
      unfold cls. rewrite U, E. reflexivity.
  - destruct (cls d p) as [|[|c]] eqn:C; intros; rewrite !O by auto.
    + apply opened_cls. assumption.
    + apply opened_cls. assumption.
    + unfold cls in C. rewrite U in C. unfold opened_files. rewrite U.
      destruct (isperblock d); [|discriminate]. destruct (seq (lock_name (path d)) p) eqn:E; [|discriminate].
      apply seq_eq in E. subst p. rewrite !put_same. reflexivity.
Qed.

Definition top (ds : list disk) (p : str) : nat := fold_right (fun d t => max (cls d p) t) 0 ds.

Lemma cls_le : forall d p, cls d p <= 2.
Proof.
  intros. unfold cls.
  repeat match goal with
         | |- context [if ?b then _ else _] => destruct b
         | |- context [match device ?p with _ => _ end] => destruct (device p)
         end; lia.
Qed.

Lemma top_le : forall ds p, top ds p <= 2.
Proof. induction ds as [|d ds IH]; intros; [cbn; lia|]. cbn [top fold_right]. fold (top ds p).
  specialize (IH p). pose proof (cls_le d p). lia. Qed.

Lemma made_made : forall x, made (made x) = made x.
Proof. intros [x|]; reflexivity. Qed.

Lemma effs_ext : forall ds f g p, f p = g p -> effs ds f p = effs ds g p.
Proof.
  induction ds as [|d ds IH]; intros f g p H; [assumption|].
  cbn. apply IH. pose proof (eff_cls d p) as C.
  destruct (cls d p) as [|[|c]]; rewrite ?C; try congruence. apply C.
Qed.

Lemma effs_top : forall ds p,
  match top ds p with
  | 0 => forall f, effs ds f p = f p
  | 1 => forall f, effs ds f p = made (f p)
  | _ => forall f g, effs ds f p = effs ds g p
  end.
Proof.
  induction ds as [|d ds IH]; intros p; [cbn; intros; reflexivity|].
  cbn [top fold_right]. fold (top ds p). specialize (IH p).
  pose proof (eff_cls d p) as C. pose proof (cls_le d p). pose proof (top_le ds p).
  assert (E : forall f, effs (d :: ds) f = effs ds (eff d f)) by reflexivity.
  destruct (top ds p) as [|[|[|t]]] eqn:T; [| | |lia];
    destruct (cls d p) as [|[|[|c]]] eqn:K; try lia; cbn [max Nat.max]; intros; rewrite !E.
  - rewrite IH. apply C.
  - rewrite IH. apply C.
  - rewrite !IH. apply C.
  - rewrite IH, C. reflexivity.
  - rewrite IH, C. apply made_made.
  - rewrite !IH. f_equal. apply C.
  - apply IH.
  - apply IH.
  - apply IH.
Qed.

Lemma tried_cls : forall a d f p,
  (cls d p = 0 -> tried device a d f p = f p)
  /\ (cls d p = 1 -> tried device a d f p = f p \/ tried device a d f p = made (f p)).
Proof.
  intros a d f p. unfold cls, tried. destruct (isufs d) eqn:U.
  - destruct (seq (path d) p) eqn:E.
    + apply seq_eq in E. subst p. destruct (device (path d)) as [n|] eqn:D.
      * rewrite (open_name_dev _ _ _ D). split; [|discriminate]. intros _. destruct a as [[]| | | | | |]; reflexivity.
      * rewrite (open_name_file _ _ D).
        split; [destruct (unlink_on_open d || _); discriminate|]. intros _.
        destruct a as [[]| | | | | |]; rewrite ?touch_same; auto.
    + assert (N : path d <> p) by (intros X; apply seq_eq in X; congruence).
      split; [intros _|discriminate].
      destruct a as [[]| | | | | |]; rewrite ?open_name_other by assumption; reflexivity.
  - destruct (isperblock d); [|split; [reflexivity|discriminate]].
    destruct (seq (lock_name (path d)) p) eqn:E; [split; discriminate|].
    assert (N : lock_name (path d) <> p) by (intros X; apply seq_eq in X; congruence).
    split; [intros _|discriminate].
    destruct a as [[]| | | | | |]; rewrite ?touch_other, ?put_other by assumption; reflexivity.
Qed.

Lemma close_other : forall os f p,
  (forall o, In o os -> isperblock (o_disk o) = true -> lock_name (path (o_disk o)) <> p) ->
  close_all os f p = f p.
Proof.
  induction os as [|o os IH]; intros f p H; [reflexivity|].
  cbn. rewrite IH by (intros; apply H; [right; assumption|assumption]).
  specialize (H o (or_introl eq_refl)). unfold close_file, isperblock in *.
  destruct (impl_of (o_disk o)); try reflexivity. apply put_other. auto.
Qed.

Lemma go_failed_files : forall ds i e m f k l os ds1 m1 f1 p,
  go i e ds m f = (Some (k, l), os, ds1, m1, f1) ->
  (top ds p = 0 -> f1 p = f p) /\ (top ds p = 1 -> f1 p = f p \/ f1 p = made (f p))
  /\ (top ds p < 2 -> forall o, In o os -> isperblock (o_disk o) = true -> lock_name (path (o_disk o)) <> p).
Proof.
  assert (LK : forall i d id p, cls d p < 2 ->
    isperblock (o_disk (ready_file device i d id)) = true ->
    lock_name (path (o_disk (ready_file device i d id))) <> p).
  { intros i d id p C PB. cbn [ready_file o_disk] in *. rewrite finished_path.
    unfold isperblock in PB. rewrite (impl_same _ _ (finished_impl device i d id)) in PB.
    unfold cls, isufs, isperblock in C. intros E. subst p. rewrite seq_refl in C.
    destruct (impl_of d); try discriminate. lia. }
  induction ds as [|d ds IH]; intros i e m f k l os ds1 m1 f1 p G; [discriminate|].
  cbn [BootProofs.go] in G. cbn [top fold_right]. fold (top ds p).
  pose proof (tried_cls (e i) d f p) as [T0 T1]. pose proof (opened_cls d f p) as [O0 O1].
  destruct (openbad device (e i) d).
  { injection G as <- <- <- <- <- <-. split; [|split].
    - intros X. apply T0. lia.
    - intros X. destruct (cls d p) as [|[|c]]; [left; auto|auto|lia].
    - intros _ o []. }
  destruct (latebad device (e i) d).
  { injection G as <- <- <- <- <- <-. split; [|split].
    - intros X. apply O0. lia.
    - intros X. destruct (cls d p) as [|[|c]]; [left; auto|auto|lia].
    - intros X o [<-|[]]. apply LK. lia. }
  destruct (go (S i) e ds _ (eff d f)) as [[[[r os'] ds'] m''] f''] eqn:GG.
  injection G as -> <- <- <- <-.
  destruct (IH _ _ _ _ _ _ _ _ _ _ p GG) as (R0 & R1 & RL).
  pose proof (eff_cls d p) as C.
  split; [|split].
  - intros X. rewrite R0 by lia. destruct (cls d p); [apply C|lia].
  - intros X. destruct (top ds p) as [|[|t]] eqn:T; [| |lia].
    + rewrite R0 by reflexivity. destruct (cls d p) as [|[|c]]; [lia| |lia]. right. apply C.
    + destruct (cls d p) as [|[|c]]; [| |lia]; rewrite !C in R1.
      * apply R1. reflexivity.
      * rewrite made_made in R1. destruct (R1 eq_refl); auto.
  - intros X o [<-|O]; [apply LK; lia|]. apply RL; [lia|assumption].
Qed.

Lemma retry_files : forall ds i e m f k l os ds1 m1 f1 p,
  go i e ds m f = (Some (k, l), os, ds1, m1, f1) ->
  effs ds (close_all os f1) p = effs ds f p.
Proof.
  intros ds i e m f k l os ds1 m1 f1 p G.
  destruct (go_failed_files _ _ _ _ _ _ _ _ _ _ _ p G) as (R0 & R1 & RL).
  pose proof (effs_top ds p) as T. pose proof (top_le ds p).
  destruct (top ds p) as [|[|[|t]]]; [| | |lia].
  - rewrite !T, close_other by (apply RL; lia). apply R0. reflexivity.
  - rewrite !T, close_other by (apply RL; lia).
    destruct (R1 eq_refl) as [-> | ->]; [reflexivity|apply made_made].
  - apply T.
Qed.
End Retry.
