(** Property C98: the Windows file classes. *)
From Coq Require Import ZArith NArith List Bool Lia PeanoNat.
From Verif Require Import OpenModel WinModel WinSpec WinProofs WinMain WinMain2.
Import ListNotations.
Local Open Scope Z_scope.

(** ** Nobody else *)

(** A file opened by an object is opened by nobody else, in this or another process,
    with or without NO_LOCK. *)
Theorem C98_exclusive : forall b w i j ri rj, wreachable b w ->
  In (i, ri) (k_handles (w_k w)) -> In (j, rj) (k_handles (w_k w)) -> i <> j -> h_foreign ri = false ->
  h_path ri <> h_path rj.
Proof.
  intros b w i j ri rj R Hi Hj Hn Hf Hp. pose proof (reachable_winv _ _ R) as W.
  apply find_in in Hi; [|apply W]. apply find_in in Hj; [|apply W].
  destruct (ki_alone _ (wi_k _ W) i j ri rj Hn Hi Hj Hp) as [A _].
  destruct (ki_ours _ (wi_k _ W) i ri Hi Hf). congruence.
Qed.
Print Assumptions C98_exclusive.

Theorem C98_objects : forall b w o1 o2 ob1 ob2 h1 h2, wreachable b w -> o1 <> o2 ->
  w_objs w o1 = Some ob1 -> w_objs w o2 = Some ob2 -> o_des ob1 = Some h1 -> o_des ob2 = Some h2 ->
  o_path ob1 <> o_path ob2.
Proof.
  intros b w o1 o2 ob1 ob2 h1 h2 R Hn E1 E2 D1 D2 Hp. pose proof (reachable_winv _ _ R) as W.
  destruct (wi_objs _ W _ _ E1 _ D1) as (_ & r1 & F1 & P1 & Q1). destruct (wi_objs _ W _ _ E2 _ D2) as (_ & r2 & F2 & P2 & Q2).
  assert (Hh : h1 <> h2) by (intros <-; apply Hn; eapply (wi_own _ W); eauto).
  destruct (ki_alone _ (wi_k _ W) h1 h2 r1 r2 Hh F1 F2 ltac:(congruence)) as [A _].
  destruct (ki_ours _ (wi_k _ W) h1 r1 F1 Q1). congruence.
Qed.
Print Assumptions C98_objects.

(** What others do does not change the file of an object. *)
Theorem C98_isolated : forall b w a w' ev o ob h, wreachable b w -> ready w o ob h ->
  step b w a = Step w' ev -> actor a <> Some o ->
  ready w' o ob h /\ k_files (w_k w') (o_path ob) = k_files (w_k w) (o_path ob).
Proof.
  intros b w a w' ev o ob h R Rd E A. pose proof (reachable_winv _ _ R) as W.
  destruct (ready_view _ _ _ _ W Rd) as (r & f & V). pose proof (view_other _ _ _ _ _ _ _ _ _ _ W V E A) as V'.
  split; [apply V'|]. destruct V as (_ & _ & _ & _ & Ef). destruct V' as (_ & _ & _ & _ & Ef'). congruence.
Qed.
Print Assumptions C98_isolated.

(** ** Transfers *)

Lemma nth_bytes : forall f off n i, 0 <= i < n -> nth (Z.to_nat i) (bytes_at f off n) 0 = f_data f (off + i).
Proof.
  intros f off n i H. unfold bytes_at.
  rewrite (nth_indep _ 0 (f_data f (off + Z.of_nat 0))) by (rewrite map_length, seq_length; lia).
  rewrite (map_nth (fun j => f_data f (off + Z.of_nat j))). rewrite seq_nth by lia. f_equal. lia.
Qed.

Theorem C98_read_back : forall b w o ob h f tr w1 buf off n e w2 l, wreachable b w -> ready w o ob h ->
  k_files (w_k w) (o_path ob) = Some f -> wrun b w tr w1 -> only_transfers o tr ->
  step b w1 (AServe o buf off (READ n) e) = Step w2 (EvRead l) ->
  Z.of_nat (length l) = n /\ (n = 0 \/ off + n <= end_of (f_size f) (written o tr)) /\
  forall i, 0 <= i < n ->
    match last_byte (written o tr) (off + i) with
    | Some v => nth (Z.to_nat i) l 0 = v
    | None => off + i < f_size f -> nth (Z.to_nat i) l 0 = f_data f (off + i)
    end.
Proof.
  intros b w o ob h f tr w1 buf off n e w2 l R Rd Ef Rn T E. pose proof (reachable_winv _ _ R) as W.
  destruct (ready_view _ _ _ _ W Rd) as (r & f0 & V). assert (f0 = f) by (destruct V as (_ & _ & _ & _ & X); congruence). subst f0.
  destruct (transfers _ _ _ _ _ _ _ _ _ W V Rn T) as (ob1 & r1 & f1 & V1 & P1 & S1 & Q1 & Q2).
  destruct (step_own _ _ _ _ _ _ _ _ _ _ V1 E eq_refl) as (r2 & V2 & S2 & G).
  destruct (G l eq_refl) as (G1 & G2 & G3 & -> & G4).
  split; [unfold bytes_at; rewrite map_length, seq_length; lia|]. split; [rewrite <- Q1; exact G4|].
  intros i Hi. rewrite nth_bytes by auto. apply Q2.
Qed.
Print Assumptions C98_read_back.

(** When transfers succeed. *)
Definition fit (b : build) (r : whandle) (buf off n : Z) : Prop :=
  h_nobuf r = true -> off mod sector b = 0 /\ n mod sector b = 0 /\ buf mod sector b = 0.

Lemma fit_aligned : forall b r buf off n, fit b r buf off n ->
  aligned b (mk_whandle (h_path r) (h_read r) (h_write r) (h_nobuf r) (h_foreign r) (h_share r) (h_locked r) off) buf n = true.
Proof.
  intros b r buf off n H. unfold aligned; cbn. destruct (h_nobuf r) eqn:N; auto.
  destruct (H N) as (-> & -> & ->). reflexivity.
Qed.

Theorem C98_read_succeeds : forall b w o ob h r f buf off n e, wreachable b w -> ready w o ob h ->
  In (h, r) (k_handles (w_k w)) -> k_files (w_k w) (o_path ob) = Some f ->
  0 <= off < 2 ^ 63 -> 0 <= n < 2 ^ 32 -> h_read r = true -> off + n <= f_size f -> fit b r buf off n ->
  exists w' l, step b w (AServe o buf off (READ n) e) = Step w' (EvRead l).
Proof.
  intros b w o ob h r f buf off n e R Rd Hin Ef Ho Hn Hr Hs Ft. pose proof (reachable_winv _ _ R) as W.
  apply find_in in Hin; [|apply W]. destruct (ready_view _ _ _ _ W Rd) as (r' & f' & V).
  destruct V as ((Eo & P & D) & F & Hp & Hf & Ef'). assert (r' = r) by congruence. assert (f' = f) by congruence. subst r' f'.
  cbn [step]. unfold idle. rewrite Eo, P. destruct (Z.leb_spec 0 off); [|lia]. unfold serve_step. rewrite D.
  destruct (set_pointer (w_k w) h off) as [k1|] eqn:Sp.
  2:{ unfold set_pointer in Sp. rewrite F in Sp. destruct (Z.ltb_spec off (2 ^ 63)); [discriminate|lia]. }
  destruct (pointer_spec _ _ _ _ Sp) as (_ & Fk & Fp). specialize (Fp r F). unfold read_file. rewrite Fp, Fk.
  rewrite Z.mod_small by auto. rewrite (fit_aligned _ _ _ _ _ Ft). cbn [h_path h_read h_pos]. rewrite Hp, Ef, Hr. cbn [andb].
  do 2 eexists. replace (Z.of_nat (length (bytes_at f off (Z.min n (Z.max 0 (f_size f - off))))) =? n) with true; [reflexivity|].
  symmetry. apply Z.eqb_eq. unfold bytes_at. rewrite map_length, seq_length. lia.
Qed.
Print Assumptions C98_read_succeeds.

Theorem C98_write_succeeds : forall b w o ob h r buf off d e, wreachable b w -> ready w o ob h ->
  In (h, r) (k_handles (w_k w)) -> 0 <= off < 2 ^ 63 -> Z.of_nat (length d) < 2 ^ 32 -> h_write r = true ->
  Z.of_nat (length d) <= e_room e -> fit b r buf off (Z.of_nat (length d)) ->
  exists w', step b w (AServe o buf off (WRITE d) e) = Step w' EvDone.
Proof.
  intros b w o ob h r buf off d e R Rd Hin Ho Hn Hr Hs Ft. pose proof (reachable_winv _ _ R) as W.
  apply find_in in Hin; [|apply W]. destruct (ready_view _ _ _ _ W Rd) as (r' & f & V).
  destruct V as ((Eo & P & D) & F & Hp & Hf & Ef). assert (r' = r) by congruence. subst r'.
  cbn [step]. unfold idle. rewrite Eo, P. destruct (Z.leb_spec 0 off); [|lia]. unfold serve_step. rewrite D.
  destruct (set_pointer (w_k w) h off) as [k1|] eqn:Sp.
  2:{ unfold set_pointer in Sp. rewrite F in Sp. destruct (Z.ltb_spec off (2 ^ 63)); [discriminate|lia]. }
  destruct (pointer_spec _ _ _ _ Sp) as (_ & Fk & Fp). specialize (Fp r F). cbv zeta. unfold write_file. rewrite Fp, Fk.
  rewrite Z.mod_small by (split; [apply Zle_0_nat|auto]).
  rewrite (firstn_all2 (n := Z.to_nat (Z.of_nat (length d)))) by lia. rewrite (fit_aligned _ _ _ _ _ Ft).
  cbn [h_path h_write h_pos]. rewrite Hp, Ef, Hr. cbn [andb].
  rewrite (firstn_all2 (n := Z.to_nat (e_room e))) by lia.
  destruct d as [|z d']; [eexists; reflexivity|]. rewrite Z.eqb_refl. eexists. reflexivity.
Qed.
Print Assumptions C98_write_succeeds.

(** A transfer of 2^32 bytes or more always fails. *)
Theorem C98_large : forall b w o ob h buf off t e w' ev, wreachable b w -> ready w o ob h ->
  step b w (AServe o buf off t e) = Step w' ev ->
  2 ^ 32 <= match t with READ n => n | WRITE d => Z.of_nat (length d) end -> ev = EvThrow.
Proof.
  intros b w o ob h buf off t e w' ev R Rd E H. pose proof (reachable_winv _ _ R) as W.
  destruct (ready_view _ _ _ _ W Rd) as (r & f & V). pose proof (step_own _ _ _ _ _ _ _ _ _ _ V E eq_refl) as So. cbn beta iota in So.
  assert (K : (exists l, ev = EvRead l /\ exists n, t = READ n) \/ (ev = EvDone /\ exists d, t = WRITE d) \/ ev = EvThrow).
  { destruct Rd as (Eo & P & D). cbn [step] in E. unfold idle in E. rewrite Eo, P in E. destruct (0 <=? off); [|discriminate].
    unfold serve_step in E. rewrite D in E. destruct (set_pointer _ _ _); [|injection E as <- <-; auto].
    destruct t as [n|d].
    - destruct (read_file _ _ _ _ _) as [l|]; [|injection E as <- <-; auto].
      destruct (Z.of_nat (length l) =? n); injection E as <- <-; eauto.
    - cbv zeta in E. destruct (write_file _ _ _ _ _ _) as [[k2 m]|]; [|injection E as <- <-; auto].
      destruct (m =? Z.of_nat (length d)); injection E as <- <-; eauto. }
  destruct K as [(l & -> & n & ->)|[(-> & d & ->)|K]]; auto.
  - destruct So as (r' & _ & _ & G). destruct (G l eq_refl) as (_ & G2 & _). lia.
  - destruct So as (r' & f' & _ & _ & G). destruct (G eq_refl) as (_ & G2 & _). lia.
Qed.
Print Assumptions C98_large.

(** ** Opening *)

Lemma world_eta : forall w, mk_world (w_k w) (w_objs w) = w.
Proof. destruct w; reflexivity. Qed.

Lemma create_sup : forall k p rd wr tr nb ro sup d x, create_file k p rd wr tr nb ro sup d = Some x -> nb = true -> sup = true.
Proof.
  intros k p rd wr tr nb ro sup d x E ->. unfold create_file in E. destruct d; [discriminate|].
  destruct (in_use k p false); [discriminate|]. destruct sup; auto; discriminate.
Qed.

Theorem C98_open : forall b w o p mode e, wreachable b w -> direct_off b = false -> good_env e ->
  has mode RDONLY || has mode WRONLY || has mode RDWR = true -> w_objs w o = None ->
  (may_open w p mode (e_nobuf e) ->
   exists w' ob h r f, step b w (AOpen o p mode e) = Step w' EvDone /\ ready w' o ob h /\ o_path ob = p /\
     In (h, r) (k_handles (w_k w')) /\ h_path r = p /\ h_read r = (has mode RDONLY || has mode RDWR) /\
     h_write r = wants_write mode /\ h_nobuf r = (has mode DIRECT && e_nobuf e) /\
     h_locked r = negb (has mode NO_LOCK) /\ o_need ob = has mode DIRECT /\
     k_files (w_k w') p = Some f /\
     match k_files (w_k w) p with
     | None => f_size f = 0
     | Some f0 => if has mode TRUNC then f_size f = 0 else f = f0
     end) /\
  (~ may_open w p mode (e_nobuf e) -> step b w (AOpen o p mode e) = Step w EvThrow).
Proof.
  intros b w o p mode e R Off (E1 & E2 & E3 & E4 & E5) Acc En. pose proof (reachable_winv _ _ R) as W.
  set (rd := has mode RDONLY || has mode RDWR). set (wr := wants_write mode).
  assert (Fin : forall k1 h nb f, find_handle k1 h = Some (mk_whandle p rd wr nb false false false 0) ->
    kinv k1 -> k_files k1 p = Some f -> open_file_impl b (w_k w) p mode e = Opened k1 h ->
    exists w' ob r, step b w (AOpen o p mode e) = Step w' EvDone /\ ready w' o ob h /\ o_path ob = p /\
     In (h, r) (k_handles (w_k w')) /\ h_path r = p /\ h_read r = rd /\ h_write r = wr /\ h_nobuf r = nb /\
     h_locked r = negb (has mode NO_LOCK) /\ o_need ob = has mode DIRECT /\ k_files (w_k w') p = Some f).
  { intros k1 h nb f F K1 Ef Op. cbn [step]. rewrite En, Acc. unfold construct. cbv zeta. rewrite Op.
    destruct (has mode NO_LOCK) eqn:NL.
    - do 3 eexists. split; [reflexivity|]. split; [split; [unfold put, upd; cbn [w_objs]; rewrite Nat.eqb_refl; reflexivity|auto]|].
      split; [reflexivity|]. split; [apply find_in; [apply K1|exact F]|]. auto 10.
    - unfold lock_file. rewrite F, E3.
      match goal with |- context [set_handle k1 h ?x] => set (r2 := x) end.
      do 3 eexists. split; [reflexivity|]. split; [split; [unfold put, upd; cbn [w_objs]; rewrite Nat.eqb_refl; reflexivity|auto]|].
      split; [reflexivity|]. split; [apply find_in with (r := r2); [|unfold put; cbn [w_k]; rewrite find_set by congruence; rewrite Nat.eqb_refl; reflexivity]|auto 10].
      cbn [w_k put]. eapply kinv_set; eauto. }
  split.
  - intros (Nb & Dr & Hf). apply (nobody_iff _ _ W) in Nb.
    assert (Cond : match k_files (w_k w) p with
            | None => has mode TRUNC = false
            | Some f => (has mode TRUNC = true -> wr = true) /\ (wr = true -> f_ro f = false)
            end) by exact Hf.
    assert (Op : exists k1 h, create_file (w_k w) p rd wr (has mode TRUNC) (has mode DIRECT && e_nobuf e) (has mode RDONLY) (e_nobuf e) false = Some (k1, h)
        /\ open_file_impl b (w_k w) p mode e = Opened k1 h).
    { destruct (create_complete (w_k w) p rd wr (has mode TRUNC) (has mode DIRECT && e_nobuf e) (has mode RDONLY) (e_nobuf e) Nb) as (k1 & h & C); auto.
      { destruct (has mode DIRECT); auto; discriminate. }
      exists k1, h. split; auto. unfold open_file_impl. cbv zeta. rewrite Off, E1, E2. fold rd.
      replace (has mode WRONLY || has mode RDWR) with wr by reflexivity.
      rewrite andb_false_r. cbn [andb negb]. rewrite andb_true_r.
      destruct (has mode DIRECT) eqn:Dm; cbn [andb] in *.
      - destruct (e_nobuf e) eqn:Nbf; [rewrite C; reflexivity|].
        replace (create_file (w_k w) p rd wr (has mode TRUNC) true (has mode RDONLY) false false) with (@None (kernel * nat)).
        2:{ unfold create_file. rewrite Nb. reflexivity. }
        destruct (has mode REQUIRE_DIRECT); [discriminate (Dr eq_refl eq_refl)|]. cbn [negb]. rewrite C. reflexivity.
      - rewrite C. reflexivity. }
    destruct Op as (k1 & h & C & Op). destruct (create_spec _ _ _ _ _ _ _ _ _ _ _ (wi_k _ W) C) as (K1 & _ & _ & F & _ & _ & f & Ef & Hc).
    destruct (Fin k1 h _ f F K1 Ef Op) as (w' & ob & r & G1 & G2 & G3 & G4 & G5 & G6 & G7 & G8 & G9 & G10 & G11).
    exists w', ob, h, r, f. split; auto. split; auto. split; auto. split; auto. split; auto. split; auto. split; auto. split; auto.
    split; auto. split; auto. split; auto.
    destruct (k_files (w_k w) p) as [f0|]; [|tauto]. destruct (has mode TRUNC); tauto.
  - intros Nm. cbn [step]. rewrite En, Acc. unfold construct. cbv zeta.
    destruct (open_file_impl b (w_k w) p mode e) as [k1 h| |] eqn:Op.
    + exfalso. apply Nm. unfold open_file_impl in Op. cbv zeta in Op. rewrite Off, E1, E2 in Op. fold rd in Op.
      replace (has mode WRONLY || has mode RDWR) with wr in Op by reflexivity. rewrite andb_false_r in Op. cbn [andb negb] in Op.
      rewrite andb_true_r in Op.
      assert (Snd : forall nb, create_file (w_k w) p rd wr (has mode TRUNC) nb (has mode RDONLY) (e_nobuf e) false = Some (k1, h) ->
        (has mode DIRECT = true -> has mode REQUIRE_DIRECT = true -> nb = true) -> may_open w p mode (e_nobuf e)).
      { intros nb C Hnb. pose proof (create_sup _ _ _ _ _ _ _ _ _ _ C) as Sup.
        destruct (create_spec _ _ _ _ _ _ _ _ _ _ _ (wi_k _ W) C) as (_ & _ & _ & _ & U & _ & f & Ef & Hc).
        split; [apply nobody_iff; auto|]. split; [auto|]. destruct (k_files (w_k w) p) as [f0|]; [|tauto].
        destruct Hc as (Hc1 & Hc2 & Hc3). split.
        - intros Ht. rewrite Ht in Hc3. apply Hc3.
        - intros Hw. fold wr in Hw. rewrite Hw, andb_true_r in Hc1. exact Hc1. }
      destruct (create_file (w_k w) p rd wr (has mode TRUNC) (has mode DIRECT) (has mode RDONLY) (e_nobuf e) false) as [[k2 h2]|] eqn:C.
      * injection Op as -> ->. apply (Snd _ C). auto.
      * destruct (has mode DIRECT && negb (has mode REQUIRE_DIRECT)) eqn:Dm; [|discriminate].
        destruct (create_file (w_k w) p rd wr (has mode TRUNC) false (has mode RDONLY) (e_nobuf e) false) as [[k2 h2]|] eqn:C2; [|discriminate].
        injection Op as -> ->. apply (Snd _ C2). intros A1 A2. rewrite A1, A2 in Dm. discriminate.
    + unfold open_file_impl in Op. cbv zeta in Op. rewrite Off in Op. rewrite andb_false_r in Op. cbn [andb] in Op.
      destruct (create_file _ _ _ _ _ _ _ _ _) as [[k2 h2]|]; [discriminate|]. destruct (negb false && _ && _); [|discriminate].
      destruct (create_file _ _ _ _ _ _ _ _ _) as [[k2 h2]|]; discriminate.
    + rewrite world_eta. reflexivity.
Qed.
Print Assumptions C98_open.

(** CREAT means nothing: a missing file is created without it (but not with TRUNC). *)
Theorem C98_creat : forall b w o p mode e, wreachable b w -> direct_off b = false -> good_env e ->
  has mode RDONLY || has mode WRONLY || has mode RDWR = true -> w_objs w o = None ->
  k_files (w_k w) p = None -> has mode DIRECT = false ->
  ((exists w', step b w (AOpen o p mode e) = Step w' EvDone) <-> has mode TRUNC = false /\ nobody w p).
Proof.
  intros b w o p mode e R Off G Acc En Ef Dm. destruct (C98_open b w o p mode e R Off G Acc En) as [A B].
  assert (M : may_open w p mode (e_nobuf e) <-> has mode TRUNC = false /\ nobody w p).
  { unfold may_open. rewrite Ef, Dm. intuition discriminate. }
  split.
  - intros (w' & E). destruct (has mode TRUNC) eqn:T.
    + rewrite B in E; [discriminate|]. intros H. apply M in H. destruct H. discriminate.
    + split; auto. pose proof (reachable_winv _ _ R) as W. apply nobody_iff; auto.
      destruct (in_use (w_k w) p false) eqn:U; auto. rewrite B in E; [discriminate|].
      intros (H & _). apply (nobody_iff _ _ W) in H. congruence.
  - intros H. apply M in H. destruct (A H) as (w' & _ & _ & _ & _ & E & _). eauto.
Qed.
Print Assumptions C98_creat.

(** Built without direct I/O, REQUIRE_DIRECT gives an object without a file. *)
Theorem C98_invalid_object : forall b w o p mode e, direct_off b = true ->
  has mode RDONLY || has mode WRONLY || has mode RDWR = true -> w_objs w o = None ->
  has mode DIRECT = true -> has mode REQUIRE_DIRECT = true -> has mode NO_LOCK = true ->
  exists w' ob, step b w (AOpen o p mode e) = Step w' EvDone /\ w_objs w' o = Some ob /\ o_des ob = None /\ w_k w' = w_k w.
Proof.
  intros b w o p mode e Off Acc En D1 D2 D3. cbn [step]. rewrite En, Acc. unfold construct, open_file_impl. cbv zeta.
  rewrite D1, D2, D3, Off. cbn [andb]. do 2 eexists. split; [reflexivity|]. unfold put, upd; cbn. rewrite Nat.eqb_refl. auto.
Qed.
Print Assumptions C98_invalid_object.

(** Without a handle every call but lock() on an object that thinks it is locked throws. *)
Theorem C98_no_handle : forall b w o ob, idle w o = Some ob -> o_des ob = None ->
  (forall buf off t e, 0 <= off -> step b w (AServe o buf off t e) = Step w EvThrow) /\
  step b w (ASize o) = Step w EvThrow /\
  (forall n e, 0 <= n -> step b w (ASetSize o n e) = Step w EvThrow) /\
  (forall e, step b w (ALock o e) = Step w (if o_locked ob then EvDone else EvThrow)).
Proof.
  intros b w o ob I D. cbn [step]. rewrite I. split; [|split; [|split]].
  - intros buf off t e H. destruct (Z.leb_spec 0 off); [|lia]. unfold serve_step. rewrite D. reflexivity.
  - unfold file_size. rewrite D. reflexivity.
  - intros n e H. destruct (Z.leb_spec 0 n); [|lia]. unfold set_size_step. rewrite D. reflexivity.
  - intros e. unfold lock_step. rewrite D. destruct (o_locked ob); reflexivity.
Qed.
Print Assumptions C98_no_handle.

(** ** Size *)

Theorem C98_set_size : forall b w o ob h f n e w', wreachable b w -> ready w o ob h ->
  k_files (w_k w) (o_path ob) = Some f ->
  has (o_mode ob) DIRECT = false -> step b w (ASetSize o n e) = Step w' EvDone ->
  ready w' o ob h /\ exists f', k_files (w_k w') (o_path ob) = Some f' /\
    if has (o_mode ob) RDONLY then f' = f
    else f_size f' = n /\ forall x, x < f_size f -> f_data f' x = f_data f x.
Proof.
  intros b w o ob h f n e w' R Rd Ef Dm E. pose proof (reachable_winv _ _ R) as W.
  destruct (ready_view _ _ _ _ W Rd) as (r & f0 & V). assert (f0 = f) by (destruct V as (_ & _ & _ & _ & X); congruence). subst f0.
  destruct V as ((Eo & P & D) & F & Hp & Hf & _). cbn [step] in E. unfold idle in E. rewrite Eo, P in E.
  destruct (Z.leb_spec 0 n); [|discriminate]. unfold set_size_step in E. rewrite D in E.
  destruct (file_size (w_k w) ob); [|discriminate]. rewrite Dm in E. destruct (has (o_mode ob) RDONLY).
  - injection E as <-. split; auto. exists f. auto.
  - cbv zeta in E. destruct (resize b (w_k w) h n e) as [k|] eqn:Rs; [|discriminate]. injection E as <-.
    split; [exact Rd|]. unfold resize in Rs. destruct (set_pointer (w_k w) h n) as [k1|] eqn:Sp; [|discriminate].
    destruct (pointer_spec _ _ _ _ Sp) as (_ & Fk & Fp). specialize (Fp r F). unfold set_end in Rs. rewrite Fp, Fk in Rs.
    cbn [h_path h_write h_pos h_nobuf] in Rs. rewrite Hp, Ef in Rs. destruct (_ && _ && _); [|discriminate]. injection Rs as <-.
    cbn [w_k]. rewrite file_file, Nat.eqb_refl. eexists. split; [reflexivity|]. cbn [f_size f_data]. split; auto.
    intros x Hx. destruct (Z.ltb_spec x (f_size f)); [reflexivity|lia].
Qed.
Print Assumptions C98_set_size.

(** set_size of a writable DIRECT file reads an uninitialised member, unless
    GetFullPathNameA failed in the constructor. *)
Theorem C98_set_size_undefined : forall b w o p mode e w1 tr w2 ob h n e', wreachable b w ->
  step b w (AOpen o p mode e) = Step w1 EvDone -> has mode DIRECT = true -> has mode RDONLY = false ->
  e_fullpath e = true -> wrun b w1 tr w2 -> (forall e2 ev, ~ In (ADestroy o e2, ev) tr) ->
  ready w2 o ob h -> 0 <= n -> step b w2 (ASetSize o n e') = Undefined.
Proof.
  intros b w o p mode e w1 tr w2 ob h n e' R E Dm Ro Fp Rn Nd Rd Hn.
  assert (W2 : winv w2).
  { eapply run_winv; [|exact Rn]. eapply step_keeps; [apply (reachable_winv _ _ R)|exact E]. }
  assert (O1 : exists ob1, w_objs w1 o = Some ob1 /\ o_mode ob1 = mode /\ o_sector ob1 = None).
  { cbn [step] in E. destruct (w_objs w o); [discriminate|]. destruct (has mode RDONLY || _ || _); [|discriminate].
    unfold construct in E. cbv zeta in E. unfold sector_member in E. rewrite Dm, Ro, Fp in E. cbn [negb andb] in E.
    destruct (open_file_impl b (w_k w) p mode e) as [k1 h1| |]; [|destruct (has mode NO_LOCK)|discriminate].
    - destruct (has mode NO_LOCK); [|destruct (lock_file _ _ _)]; try discriminate; injection E as <-;
        unfold put, upd; cbn [w_objs]; rewrite Nat.eqb_refl; eexists; split; try reflexivity; auto.
    - injection E as <-. unfold put, upd; cbn [w_objs]; rewrite Nat.eqb_refl; eexists; split; [reflexivity|auto].
    - discriminate. }
  destruct O1 as (ob1 & E1 & M1 & S1). destruct (run_const _ _ _ _ _ _ Rn E1 Nd) as (ob2 & E2 & M2 & S2 & _).
  destruct (ready_view _ _ _ _ W2 Rd) as (r & f & V). destruct V as ((Eo & P & D) & F & Hp & Hf & Ef).
  assert (ob2 = ob) by congruence. subst ob2. cbn [step]. unfold idle. rewrite Eo, P. destruct (Z.leb_spec 0 n); [|lia].
  unfold set_size_step, file_size. rewrite D, F, Hp, Ef. rewrite M2, M1, Ro, Dm. rewrite S2, S1. reflexivity.
Qed.
Print Assumptions C98_set_size_undefined.

(** Where the member is set (to 512), a size that is not a multiple is set by opening
    the file in another mode; undisturbed and with the right to write, it is set, the
    bytes are kept, and the lock is gone. *)
Lemma has_ldiff : forall m a b, has (N.ldiff m (2 ^ a)) (2 ^ b) = if (a =? b)%N then false else has m (2 ^ b).
Proof.
  intros m a b. unfold has.
  assert (E : N.land (N.ldiff m (2 ^ a)) (2 ^ b) = if (a =? b)%N then 0%N else N.land m (2 ^ b)).
  { apply N.bits_inj. intros i. rewrite N.land_spec, N.ldiff_spec, !N.pow2_bits_eqb.
    destruct (N.eqb_spec a b) as [->|Hn].
    - rewrite N.bits_0. destruct (b =? i)%N; destruct (N.testbit m i); reflexivity.
    - rewrite N.land_spec, N.pow2_bits_eqb. destruct (N.eqb_spec b i) as [->|Hb]; [|rewrite !andb_false_r; reflexivity].
      destruct (N.eqb_spec a i); [congruence|]. rewrite andb_true_r. reflexivity. }
  rewrite E. destruct (a =? b)%N; reflexivity.
Qed.

Lemma dropped_free : forall k h r, kinv k -> find_handle k h = Some r -> h_foreign r = false ->
  in_use (drop_handle k h) (h_path r) false = false.
Proof.
  intros k h r K F Hf. destruct (in_use (drop_handle k h) (h_path r) false) eqn:U; auto.
  destruct (in_use_true _ _ _ (kinv_drop _ h K) U) as (i & s & Fi & Hp). rewrite find_drop in Fi.
  destruct (Nat.eqb_spec i h) as [->|Hn]; [discriminate|].
  destruct (ki_alone _ K i h s r Hn Fi F Hp) as [_ A]. destruct (ki_ours _ K h r F Hf). congruence.
Qed.

Theorem C98_direct_size : forall b w o ob h f s n e1 e2 e3, wreachable b w -> direct_off b = false ->
  ready w o ob h -> k_files (w_k w) (o_path ob) = Some f ->
  has (o_mode ob) DIRECT = true -> has (o_mode ob) RDONLY = false -> has (o_mode ob) REQUIRE_DIRECT = false ->
  o_sector ob = Some s -> n mod s <> 0 -> 0 <= n < 2 ^ 63 -> f_ro f = false ->
  good_env e1 -> good_env e2 -> good_env e3 ->
  exists w' h' r' f', wrun b w [(ASetSize o n e1, EvSilent); (AResize o e2, EvSilent); (AReopen o e3, EvDone)] w' /\
    ready w' o (with_des ob (Some h') Idle) h' /\ In (h', r') (k_handles (w_k w')) /\ h_locked r' = false /\
    k_files (w_k w') (o_path ob) = Some f' /\ f_size f' = n /\ forall x, x < f_size f -> f_data f' x = f_data f x.
Proof.
  intros b w o ob h f s n e1 e2 e3 R Off Rd Ef Dm Ro Rq Es Hm Hn Hro (A1 & A2 & A3 & A4 & A5) (B1 & B2 & B3 & B4 & B5) (C1 & C2 & C3 & C4 & C5).
  pose proof (reachable_winv _ _ R) as W. destruct (ready_view _ _ _ _ W Rd) as (r & f0 & V).
  destruct V as ((Eo & P & D) & F & Hp & Hf & Ef0). assert (f0 = f) by congruence. subst f0.
  pose proof (dropped_free _ _ _ (wi_k _ W) F Hf) as U1. rewrite Hp in U1.
  set (k0 := drop_handle (w_k w) h) in *. assert (K0 : kinv k0) by (apply kinv_drop; apply W).
  assert (S1 : step b w (ASetSize o n e1) = Step (put w k0 o (Some (with_des ob None (Resizing n)))) EvSilent).
  { cbn [step]. unfold idle. rewrite Eo, P. destruct (Z.leb_spec 0 n); [|lia]. unfold set_size_step, file_size.
    rewrite D, F, Hp, Ef, Ro, Dm, Es. destruct (Z.eqb_spec (n mod s) 0); [congruence|]. rewrite A4. reflexivity. }
  (* the second handle *)
  destruct (create_complete k0 (o_path ob) false true false false false (e_nobuf e2) U1) as (k1 & h1 & Cr1).
  { discriminate. }
  { change (k_files k0) with (k_files (w_k w)). rewrite Ef. auto. }
  destruct (create_spec _ _ _ _ _ _ _ _ _ _ _ K0 Cr1) as (K1 & _ & _ & F1 & _ & _ & f1 & Ef1 & Hc).
  change (k_files k0) with (k_files (w_k w)) in Hc. rewrite Ef in Hc. destruct Hc as (_ & Hro1 & ->).
  assert (Op1 : open_file_impl b k0 (o_path ob) WRONLY e2 = Opened k1 h1).
  { unfold open_file_impl. cbv zeta. rewrite B1. change (has WRONLY DIRECT) with false. cbn [andb].
    change (has WRONLY RDONLY || has WRONLY RDWR) with false. change (has WRONLY WRONLY || has WRONLY RDWR) with true.
    change (has WRONLY TRUNC) with false. change (has WRONLY RDONLY) with false. rewrite Cr1. reflexivity. }
  destruct (set_pointer k1 h1 n) as [k2|] eqn:Sp.
  2:{ unfold set_pointer in Sp. rewrite F1 in Sp. destruct (Z.ltb_spec n (2 ^ 63)); [discriminate|lia]. }
  destruct (pointer_spec _ _ _ _ Sp) as (_ & Fk2 & Fp2). specialize (Fp2 _ F1). cbn in Fp2.
  pose proof (pointer_on _ _ _ _ K1 Sp) as On2.
  set (f2 := mk_wfile n (fun x => if x <? f_size f then f_data f x else e_junk e2 x) (f_ro f)).
  assert (Se : set_end b k2 h1 e2 = Some (set_file k2 (o_path ob) (Some f2))).
  { unfold set_end. rewrite Fp2. cbn [h_path h_write h_nobuf h_pos]. rewrite Fk2, Ef1, B5. reflexivity. }
  set (k3 := set_file k2 (o_path ob) (Some f2)) in *.
  assert (On3 : on_handle k2 k3 h1).
  { pose proof (on_file k2 h1 _ f2 (proj1 On2) Fp2) as X. exact X. }
  assert (F3 : find_handle k3 h1 = Some (mk_whandle (o_path ob) false true false false false false n)) by exact Fp2.
  pose proof (dropped_free _ _ _ (proj1 On3) F3 eq_refl) as U3. cbn [h_path] in U3.
  set (k4 := drop_handle k3 h1) in *. assert (K4 : kinv k4) by (apply kinv_drop; apply On3).
  set (w1 := put w k0 o (Some (with_des ob None (Resizing n)))) in *.
  assert (S2 : step b w1 (AResize o e2) = Step (put w1 k4 o (Some (with_des ob None Reopening))) EvSilent).
  { cbn [step]. unfold w1 at 1, put, upd. cbn [w_objs]. rewrite Nat.eqb_refl. cbn [o_phase with_des].
    unfold resize_step. change (w_k w1) with k0. cbn [o_path with_des]. rewrite Op1. unfold resize. rewrite Sp, Se, B4. reflexivity. }
  assert (Ef4 : k_files k4 (o_path ob) = Some f2).
  { unfold k4, drop_handle. cbn [k_files]. unfold k3. rewrite file_file, Nat.eqb_refl. reflexivity. }
  set (md := N.ldiff (o_mode ob) TRUNC).
  assert (Hd : forall x, x <> 5%N -> has md (2 ^ x) = has (o_mode ob) (2 ^ x)).
  { intros x Hx. unfold md. change TRUNC with (2 ^ 5)%N. rewrite has_ldiff. destruct (N.eqb_spec 5 x); [congruence|reflexivity]. }
  assert (Ht : has md TRUNC = false).
  { unfold md. change TRUNC with (2 ^ 5)%N. rewrite has_ldiff. reflexivity. }
  assert (HD : has md DIRECT = true) by (change DIRECT with (2 ^ 4)%N; rewrite Hd by discriminate; exact Dm).
  assert (HQ : has md REQUIRE_DIRECT = false) by (change REQUIRE_DIRECT with (2 ^ 8)%N; rewrite Hd by discriminate; exact Rq).
  assert (HR : has md RDONLY = false) by (change RDONLY with (2 ^ 0)%N; rewrite Hd by discriminate; exact Ro).
  assert (Op3 : exists nb k5 h5, create_file k4 (o_path ob) (has md RDONLY || has md RDWR) (has md WRONLY || has md RDWR) false nb false (e_nobuf e3) false = Some (k5, h5)
    /\ open_file_impl b k4 (o_path ob) md e3 = Opened k5 h5).
  { exists (e_nobuf e3).
    destruct (create_complete k4 (o_path ob) (has md RDONLY || has md RDWR) (has md WRONLY || has md RDWR) false (e_nobuf e3) false (e_nobuf e3) U3) as (k5 & h5 & Cr5); auto.
    { rewrite Ef4. split; [discriminate|]. intros _. exact Hro. }
    exists k5, h5. split; auto. unfold open_file_impl. cbv zeta. rewrite HD, HQ, Ht, Off, C1, C2. cbn [andb negb].
    rewrite HR in *. destruct (e_nobuf e3).
    - rewrite Cr5. reflexivity.
    - replace (create_file k4 (o_path ob) (false || has md RDWR) (has md WRONLY || has md RDWR) false true false false false) with (@None (kernel * nat)).
      2:{ unfold create_file. rewrite U3. reflexivity. }
      rewrite Cr5. reflexivity. }
  destruct Op3 as (nb & k5 & h5 & Cr5 & Op5).
  destruct (create_spec _ _ _ _ _ _ _ _ _ _ _ K4 Cr5) as (K5 & _ & _ & F5 & _ & _ & f5 & Ef5 & Hc5).
  rewrite Ef4 in Hc5. destruct Hc5 as (_ & _ & ->).
  set (w2 := put w1 k4 o (Some (with_des ob None Reopening))) in *.
  assert (S3 : step b w2 (AReopen o e3) = Step (put w2 k5 o (Some (with_des (with_des ob None Reopening) (Some h5) Idle))) EvDone).
  { cbn [step]. unfold w2 at 1, put, upd. cbn [w_objs]. rewrite Nat.eqb_refl. cbn [o_phase with_des].
    unfold reopen_step. change (w_k w2) with k4. cbn [o_path o_mode with_des]. fold md. rewrite Op5. reflexivity. }
  exists (put w2 k5 o (Some (with_des (with_des ob None Reopening) (Some h5) Idle))), h5. eexists. exists f2. split.
  { econstructor; [exact S1|]. econstructor; [exact S2|]. econstructor; [exact S3|]. constructor. }
  split. { split; [|split; reflexivity]. unfold put, upd. cbn [w_objs]. rewrite Nat.eqb_refl. reflexivity. }
  split. { apply find_in; [apply K5|exact F5]. }
  split; [reflexivity|]. split; [exact Ef5|]. split; [reflexivity|].
  intros x Hx. cbn [f_data f2]. destruct (Z.ltb_spec x (f_size f)); [reflexivity|lia].
Qed.
Print Assumptions C98_direct_size.

(** size(), the destructor and close_remove. *)
Theorem C98_size : forall b w o ob h f, wreachable b w -> ready w o ob h ->
  k_files (w_k w) (o_path ob) = Some f -> step b w (ASize o) = Step w (EvSize (f_size f)).
Proof.
  intros b w o ob h f R Rd Ef. pose proof (reachable_winv _ _ R) as W. destruct (ready_view _ _ _ _ W Rd) as (r & f0 & V).
  destruct V as ((Eo & P & D) & F & Hp & Hf & Ef0). cbn [step]. unfold idle. rewrite Eo, P. unfold file_size. rewrite D, F, Hp, Ef. reflexivity.
Qed.
Print Assumptions C98_size.

Theorem C98_close : forall b w o ob h f e, wreachable b w -> ready w o ob h ->
  k_files (w_k w) (o_path ob) = Some f -> e_close e = true ->
  (exists w', step b w (ADestroy o e) = Step w' EvDone /\ w_objs w' o = None /\ nobody w' (o_path ob) /\
     k_files (w_k w') (o_path ob) = Some f) /\
  (exists w', step b w (ARemove o e) = Step w' EvDone /\ nobody w' (o_path ob) /\
     k_files (w_k w') (o_path ob) = if f_ro f then Some f else None).
Proof.
  intros b w o ob h f e R Rd Ef He. pose proof (reachable_winv _ _ R) as W. destruct (ready_view _ _ _ _ W Rd) as (r & f0 & V).
  destruct V as ((Eo & P & D) & F & Hp & Hf & Ef0). pose proof (dropped_free _ _ _ (wi_k _ W) F Hf) as U. rewrite Hp in U.
  set (k0 := drop_handle (w_k w) h) in *. assert (K0 : kinv k0) by (apply kinv_drop; apply W).
  assert (N : forall i s, In (i, s) (k_handles k0) -> h_path s <> o_path ob).
  { intros i s Hin Hq. apply find_in in Hin; [|apply K0]. destruct (in_use_false _ _ _ K0 U i s Hin Hq). discriminate. }
  assert (Nh : existsb (fun x => Nat.eqb (h_path (snd x)) (o_path ob)) (k_handles k0) = false).
  { destruct (existsb _ (k_handles k0)) eqn:X; auto. apply existsb_exists in X. destruct X as ([i s] & Hin & Q).
    apply Nat.eqb_eq in Q. destruct (N i s Hin Q). }
  cbn [step]. unfold idle. rewrite Eo, P. unfold close_handle. rewrite D, He. fold k0. split.
  - eexists. split; [reflexivity|]. split; [unfold put, upd; cbn [w_objs]; rewrite Nat.eqb_refl; reflexivity|].
    split; [exact N|exact Ef].
  - eexists. split; [reflexivity|]. unfold nobody, put. cbn [w_k]. unfold delete_file.
    change (k_files k0) with (k_files (w_k w)). rewrite Ef, Nh, orb_false_r. destruct (f_ro f); [split; [exact N|exact Ef]|].
    split; [exact N|]. rewrite file_file, Nat.eqb_refl. reflexivity.
Qed.
Print Assumptions C98_close.

(** ** Examples *)

Fixpoint exec (b : build) (w : world) (acts : list act) : option (list (act * event) * world) :=
  match acts with
  | [] => Some ([], w)
  | a :: r => match step b w a with
              | Step w1 ev => match exec b w1 r with Some (tr, w2) => Some ((a, ev) :: tr, w2) | None => None end
              | _ => None
              end
  end.

Lemma exec_run : forall b acts w tr w', exec b w acts = Some (tr, w') -> wrun b w tr w'.
Proof.
  induction acts as [|a r IH]; intros w tr w' E; simpl in E.
  - injection E as <- <-. constructor.
  - destruct (step b w a) as [w1 ev| |] eqn:S; try discriminate. destruct (exec b w1 r) as [[tr1 w2]|] eqn:X; [|discriminate].
    injection E as <- <-. econstructor; eauto.
Qed.

Definition pc : build := mk_build false 512.
Definition fine : env := mk_env false false true true true true 1000000 true (fun _ => 7).
Definition no_path : env := mk_env false false true true false true 1000000 true (fun _ => 7).
Definition no_nobuf : env := mk_env false false false true true true 1000000 true (fun _ => 7).
Definition disk0 : nat -> option wfile := fun p => if Nat.eqb p 1 then Some (mk_wfile 10 (fun x => x) false) else None.
Definition rw : N := RDWR.
Definition rw_direct : N := N.lor RDWR DIRECT.

(** Two objects on two files; a third on the first file is refused; reading gives the
    bytes written last and those of the file. *)
Definition acts1 : list act :=
  [AOpen 0 1 rw fine; AOpen 1 2 rw fine; AOpen 2 1 rw fine; AServe 0 0 4 (WRITE [50; 51; 52]) fine;
   AServe 1 0 0 (WRITE [9]) fine; AServe 0 0 6 (WRITE [60; 61; 62; 63; 64]) fine; AServe 0 0 2 (READ 9) fine;
   AServe 0 0 2 (READ 10) fine; ASize 0].
Definition events (acts : list act) : option (list event) :=
  match exec pc (wstart disk0) acts with Some (tr, _) => Some (map snd tr) | None => None end.
Example C98_case : events acts1 = Some [EvDone; EvDone; EvThrow; EvDone; EvDone; EvDone; EvRead [2; 3; 50; 51; 60; 61; 62; 63; 64]; EvThrow; EvSize 11].
Proof. vm_compute. reflexivity. Qed.

(** The hypotheses of C98_read_back and C98_isolated are met. *)
Example C98_read_back_case : exists tr0 w ob h f tr w1, exec pc (wstart disk0) (firstn 3 acts1) = Some (tr0, w) /\
  ready w 0%nat ob h /\ k_files (w_k w) (o_path ob) = Some f /\ exec pc w (firstn 3 (skipn 3 acts1)) = Some (tr, w1) /\
  only_transfers 0 tr /\ written 0 tr = [(4, [50; 51; 52]); (6, [60; 61; 62; 63; 64])] /\ end_of (f_size f) (written 0 tr) = 11.
Proof.
  do 7 eexists. split; [reflexivity|]. split; [split; [reflexivity|split; reflexivity]|]. split; [reflexivity|]. split; [reflexivity|].
  split; [|split; reflexivity]. intros a ev [E|[E|[E|[]]]] A; injection E as <- <-; simpl in *; try discriminate A; reflexivity.
Qed.

Theorem C98_alignment_refuted : ~ (forall b w o ob h r, wreachable b w -> ready w o ob h ->
  In (h, r) (k_handles (w_k w)) -> o_need ob = true -> h_nobuf r = true).
Proof.
  intros H. destruct (exec pc (wstart disk0) [AOpen 0 1 rw_direct no_nobuf]) as [[tr w]|] eqn:E; [|discriminate E].
  pose proof (exec_run _ _ _ _ _ E) as R. injection E as Et Ew.
  specialize (H pc w 0%nat). subst w. specialize (H _ 0%nat _ (ex_intro _ disk0 (ex_intro _ tr R)) (conj eq_refl (conj eq_refl eq_refl)) (or_introl eq_refl) eq_refl).
  discriminate H.
Qed.
Print Assumptions C98_alignment_refuted.

(** After set_size has reopened the file, locked_ is still true but the lock is gone. *)
Definition acts2 : list act :=
  [AOpen 0 1 rw_direct no_path; ASetSize 0 100 fine; AResize 0 fine; AReopen 0 fine].
Example C98_direct_size_case : events (acts2 ++ [ASize 0; ARemove 0 fine; FOpen 1 true true false]) =
  Some [EvDone; EvSilent; EvSilent; EvDone; EvSize 100; EvDone; EvSilent].
Proof. vm_compute. reflexivity. Qed.

Theorem C98_lock_refuted : ~ (forall b w o ob h r, wreachable b w -> ready w o ob h ->
  In (h, r) (k_handles (w_k w)) -> o_locked ob = true -> h_locked r = true).
Proof.
  intros H. destruct (exec pc (wstart disk0) acts2) as [[tr w]|] eqn:E; [|discriminate E].
  pose proof (exec_run _ _ _ _ _ E) as R. injection E as Et Ew.
  specialize (H pc w 0%nat). subst w. specialize (H _ 2%nat _ (ex_intro _ disk0 (ex_intro _ tr R)) (conj eq_refl (conj eq_refl eq_refl)) (or_introl eq_refl) eq_refl).
  discriminate H.
Qed.
Print Assumptions C98_lock_refuted.

(** If another program opens the file meanwhile, the object loses its file. *)
Definition acts3 : list act :=
  [AOpen 0 1 rw_direct no_path; ASetSize 0 100 fine; FOpen 1 true true false; AResize 0 fine].
Theorem C98_keeps_handle_refuted : ~ (forall b w tr w' o ob h ob', wreachable b w -> ready w o ob h -> wrun b w tr w' ->
  (forall e ev, ~ In (ADestroy o e, ev) tr) -> (forall e ev, ~ In (ARemove o e, ev) tr) ->
  idle w' o = Some ob' -> o_des ob' <> None).
Proof.
  intros H. destruct (exec pc (wstart disk0) (firstn 1 acts3)) as [[tr w]|] eqn:E; [|discriminate E].
  pose proof (exec_run _ _ _ _ _ E) as R.
  destruct (exec pc w (skipn 1 acts3)) as [[tr2 w2]|] eqn:E2; [|injection E as _ <-; discriminate E2].
  pose proof (exec_run _ _ _ _ _ E2) as R2. injection E as Et Ew.
  assert (Tr : forall (P : act -> Prop), Forall P (skipn 1 acts3) -> forall a ev, In (a, ev) tr2 -> P a).
  { assert (G : forall acts w tr w', exec pc w acts = Some (tr, w') -> forall (P : act -> Prop), Forall P acts -> forall a ev, In (a, ev) tr -> P a).
    { clear. induction acts as [|a0 r IH]; intros w tr w' X P F a ev Hin; simpl in X.
      - injection X as <- <-. destruct Hin.
      - destruct (step pc w a0) as [w1 ev1| |]; try discriminate. destruct (exec pc w1 r) as [[tr1 w2]|] eqn:Y; [|discriminate].
        injection X as <- <-. inversion F as [|y l F1 F2]; subst. destruct Hin as [Q|Q]; [injection Q as <- <-; auto|eapply IH; eauto]. }
    eapply G; eauto. }
  apply (H pc w tr2 w2 0%nat (mk_wobj 1 rw_direct (Some 0%nat) true true (Some 512) Idle) 0%nat
           (mk_wobj 1 rw_direct None true true (Some 512) Idle)).
  - exists disk0, tr. exact R.
  - subst w. split; [reflexivity|split; reflexivity].
  - exact R2.
  - intros e ev Hin. refine (Tr (fun a => forall e, a <> ADestroy 0 e) _ _ _ Hin e eq_refl). repeat (constructor; [discriminate|]). constructor.
  - intros e ev Hin. refine (Tr (fun a => forall e, a <> ARemove 0 e) _ _ _ Hin e eq_refl). repeat (constructor; [discriminate|]). constructor.
  - subst w. injection E2 as _ <-. reflexivity.
  - reflexivity.
Qed.
Print Assumptions C98_keeps_handle_refuted.
