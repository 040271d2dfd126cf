(** Scoped timers measure the periods from a start to the next stop. *)

From Coq Require Import ZArith List Bool Arith Lia.
From Verif Require Import StatsModel ScopedModel ScopedSpec.
Import ListNotations.
Local Open Scope nat_scope.

(** ** Interleavings *)

Lemma il_prefix : forall A (q : list A) ps1 p ps2 tr, interleave (ps1 ++ p :: ps2) tr ->
  interleave (ps1 ++ (q ++ p) :: ps2) (q ++ tr).
Proof. intros A. induction q as [|a q IH]; cbn; intros; auto. apply IlStep. auto. Qed.

Lemma il_split : forall A (ps : list (list A)) tr, interleave ps tr -> forall ps1 p q ps2, ps = ps1 ++ (p ++ q) :: ps2 ->
  interleave (ps1 ++ p :: q :: ps2) tr.
Proof.
  intros A ps tr H. induction H as [ps F|qs1 a r qs2 tr H IH]; intros ps1 p q ps2 E.
  - apply IlNil. subst ps. apply Forall_app in F. destruct F as (F1 & F2). inversion F2 as [|? ? E F3]; subst.
    apply app_eq_nil in E. destruct E. apply Forall_app. split; auto.
  - assert (C : (exists m, qs2 = m ++ (p ++ q) :: ps2 /\ ps1 = qs1 ++ (a :: r) :: m) \/
      (ps1 = qs1 /\ p ++ q = a :: r /\ ps2 = qs2) \/
      (exists m, qs1 = ps1 ++ (p ++ q) :: m /\ ps2 = m ++ (a :: r) :: qs2)).
    { clear H IH. revert ps1 E. induction qs1 as [|z qs1 IH]; intros [|y ps1] E; cbn in E.
      - inversion E. subst. right. left. auto.
      - inversion E as [[E1 E2]]. subst y. left. exists ps1. auto.
      - inversion E as [[E1 E2]]. subst z. right. right. exists qs1. auto.
      - inversion E as [[E1 E2]]. subst z. destruct (IH ps1 E2) as [(m & G1 & G2)|[(-> & G1 & G2)|(m & G1 & G2)]].
        + left. exists m. rewrite G2. auto.
        + right. left. auto.
        + right. right. exists m. rewrite G1. auto. }
    destruct C as [(m & -> & ->)|[(-> & C1 & ->)|(m & -> & ->)]].
    + rewrite <- app_assoc. cbn. apply IlStep.
      replace (qs1 ++ r :: m ++ p :: q :: ps2) with ((qs1 ++ r :: m) ++ p :: q :: ps2) by (rewrite <- app_assoc; auto).
      apply IH. rewrite <- app_assoc. auto.
    + destruct p as [|b p]; cbn in C1.
      * subst q. change (qs1 ++ [] :: (a :: r) :: qs2) with (qs1 ++ [[]] ++ (a :: r) :: qs2). rewrite app_assoc. apply IlStep.
        rewrite <- app_assoc. cbn. apply IH. auto.
      * inversion C1. subst. apply IlStep. apply IH. auto.
    + change (ps1 ++ p :: q :: m ++ (a :: r) :: qs2) with (ps1 ++ (p :: q :: m) ++ (a :: r) :: qs2).
      rewrite app_assoc. apply IlStep. rewrite <- app_assoc. cbn. apply IH. rewrite <- app_assoc. auto.
Qed.

Lemma il_drop : forall A (ps : list (list A)) tr, interleave ps tr -> forall ps1 ps2, ps = ps1 ++ [] :: ps2 ->
  interleave (ps1 ++ ps2) tr.
Proof.
  intros A ps tr H. induction H as [ps F|qs1 a r qs2 tr H IH]; intros ps1 ps2 E.
  - apply IlNil. subst ps. apply Forall_app in F. destruct F as (F1 & F2). inversion F2; subst. apply Forall_app. auto.
  - assert (C : (exists m, qs2 = m ++ [] :: ps2 /\ ps1 = qs1 ++ (a :: r) :: m) \/
      (exists m, qs1 = ps1 ++ [] :: m /\ ps2 = m ++ (a :: r) :: qs2)).
    { clear H IH. revert ps1 E. induction qs1 as [|z qs1 IH]; intros [|y ps1] E; cbn in E.
      - discriminate.
      - inversion E as [[E1 E2]]. subst y. left. exists ps1. auto.
      - inversion E as [[E1 E2]]. subst z. right. exists qs1. auto.
      - inversion E as [[E1 E2]]. subst z. destruct (IH ps1 E2) as [(m & G1 & G2)|(m & G1 & G2)].
        + left. exists m. rewrite G2. auto.
        + right. exists m. rewrite G1. auto. }
    destruct C as [(m & -> & ->)|(m & -> & ->)].
    + rewrite <- app_assoc. cbn. apply IlStep.
      replace (qs1 ++ r :: m ++ ps2) with ((qs1 ++ r :: m) ++ ps2) by (rewrite <- app_assoc; auto).
      apply IH. rewrite <- app_assoc. auto.
    + rewrite app_assoc. apply IlStep. rewrite <- app_assoc. apply IH. rewrite <- app_assoc. auto.
Qed.

Lemma il_concat : forall A (q : list (list A)) ps1 ps2 tr, interleave (ps1 ++ concat q :: ps2) tr ->
  interleave (ps1 ++ q ++ ps2) tr.
Proof.
  intros A. induction q as [|p q IH]; intros ps1 ps2 tr H.
  - cbn in *. eapply il_drop; eauto.
  - cbn in *. pose proof (il_split _ _ _ H ps1 p (concat q) ps2 eq_refl) as H1.
    replace (ps1 ++ p :: concat q :: ps2) with ((ps1 ++ [p]) ++ concat q :: ps2) in H1 by (rewrite <- app_assoc; auto).
    apply IH in H1. rewrite <- app_assoc in H1. auto.
Qed.

Lemma il_concats : forall A (qss : list (list (list A))) ps1 tr, interleave (ps1 ++ map (@concat A) qss) tr ->
  interleave (ps1 ++ concat qss) tr.
Proof.
  intros A. induction qss as [|q qss IH]; intros ps1 tr H; cbn in *; auto.
  apply il_concat in H. rewrite app_assoc in H. apply IH in H. rewrite <- app_assoc in H. auto.
Qed.

Lemma il_nest : forall A (ss : list (list A)) tr, interleave ss tr ->
  forall Ps, Forall2 (fun P s => interleave P s) Ps ss -> interleave (concat Ps) tr.
Proof.
  intros A ss tr H. induction H as [ss F|ps1 a p ps2 tr H IH]; intros Ps F2.
  - apply IlNil. revert F. induction F2 as [|P s Ps ss I0 F2 IH]; intros F; cbn; auto.
    inversion F; subst. apply Forall_app. split; auto. inversion I0; subst; auto.
  - apply Forall2_app_inv_r in F2. destruct F2 as (P1 & P2 & F1 & F2 & ->). inversion F2 as [|Pm ? Pr ? Im Fr]; subst.
    inversion Im as [|q1 ? r q2 ? I1]; subst.
    assert (G : interleave (concat (P1 ++ (q1 ++ r :: q2) :: Pr)) tr).
    { apply IH. apply Forall2_app; auto. }
    rewrite concat_app in *. cbn in *. rewrite <- app_assoc in *. cbn in *. rewrite app_assoc in *. apply IlStep. auto.
Qed.

(** ** One timer *)

Fixpoint emit (k : what) (on : option (Z * Z)) (l : list ev) : list section :=
  match l with
  | [] => []
  | EOn s t :: l' => match on with None => begins k s t ++ emit k (Some (s, t)) l' | Some _ => emit k on l' end
  | EOff t :: l' => match on with Some _ => ends k t ++ emit k None l' | None => emit k None l' end
  end.

Fixpoint on_end (on : option (Z * Z)) (l : list ev) : option (Z * Z) :=
  match l with
  | [] => on
  | EOn s t :: l' => on_end (match on with None => Some (s, t) | Some x => Some x end) l'
  | EOff t :: l' => on_end None l'
  end.

Lemma program_op : forall k s t0 t, program (op_for k (s, t0, t)) = begins k s t0 ++ ends k t.
Proof. intros [[|] f|w] s t0 t; reflexivity. Qed.

Lemma emit_spans : forall k l on, on_end on l = None ->
  (match on with Some (s, t) => begins k s t | None => [] end) ++ emit k on l =
  concat (map program (map (op_for k) (spans on l))).
Proof.
  intros k. induction l as [|[s t|t] l IH]; intros on H; cbn [emit on_end spans] in *.
  - subst on. reflexivity.
  - destruct on as [[s0 t0]|]; apply IH in H; auto.
  - apply IH in H. cbn [app] in H. destruct on as [[s0 t0]|]; auto.
    cbn [map concat]. rewrite program_op, <- app_assoc. f_equal. f_equal. exact H.
Qed.

(** ** A thread *)

Lemma seq_split : forall N i, i < N -> seq 0 N = seq 0 i ++ i :: seq (S i) (N - S i).
Proof.
  intros N i H. replace N with (i + S (N - S i)) at 1 by lia. rewrite seq_app. reflexivity.
Qed.

Lemma il_at : forall (g g' : nat -> list section) N i q tr, i < N -> (forall j, j <> i -> g' j = g j) -> g' i = q ++ g i ->
  interleave (map g (seq 0 N)) tr -> interleave (map g' (seq 0 N)) (q ++ tr).
Proof.
  intros g g' N i q tr L O A H. rewrite (seq_split N i L) in *. rewrite map_app in *. cbn [map] in *. rewrite A.
  rewrite (map_ext_in g' g (seq 0 i)), (map_ext_in g' g (seq (S i) (N - S i))).
  - apply il_prefix. auto.
  - intros j Hj. apply in_seq in Hj. apply O. lia.
  - intros j Hj. apply in_seq in Hj. apply O. lia.
Qed.

Lemma il_same : forall (g g' : nat -> list section) N tr, (forall j, g' j = g j) ->
  interleave (map g (seq 0 N)) tr -> interleave (map g' (seq 0 N)) tr.
Proof. intros g g' N tr E H. rewrite (map_ext g' g); auto. Qed.

Lemma put_nth : forall l i o j, nth_error (put i o l) j =
  if Nat.eqb i j then match nth_error l j with Some _ => Some o | None => None end else nth_error l j.
Proof.
  induction l as [|a l IH]; intros [|i] o [|j]; cbn; auto; destruct (Nat.eqb i j); auto.
Qed.

Lemma put_length : forall l i o, length (put i o l) = length l.
Proof. induction l; intros [|i] o; cbn; auto. Qed.

Definition upd_on (on : nat -> option (Z * Z)) (i : nat) (v : option (Z * Z)) : nat -> option (Z * Z) :=
  fun j => if Nat.eqb j i then v else on j.

Definition fits (kf : nat -> what) (on : nat -> option (Z * Z)) (l : list (option tmr)) : Prop :=
  (forall i t, nth_error l i = Some (Some t) -> t_what t = kf i /\ t_run t = match on i with Some _ => true | None => false end) /\
  (forall i, nth_error l i = Some None -> on i = None) /\
  (forall i, length l <= i -> on i = None).

Lemma fits_put : forall kf on l i t v o, fits kf on l -> nth_error l i = Some (Some t) ->
  match o with Some t' => t_what t' = kf i /\ t_run t' = match v with Some _ => true | None => false end | None => v = None end ->
  fits kf (upd_on on i v) (put i o l).
Proof.
  intros kf on l i t v o (F1 & F2 & F3) Hi Ho. unfold fits, upd_on. rewrite put_length. split; [|split].
  - intros j t' Hj. rewrite put_nth in Hj. destruct (Nat.eqb_spec i j) as [Q|D].
    + rewrite <- Q in *. rewrite Hi in Hj. inversion Hj; subst. rewrite Nat.eqb_refl. auto.
    + replace (j =? i) with false by (symmetry; apply Nat.eqb_neq; auto). auto.
  - intros j Hj. rewrite put_nth in Hj. destruct (Nat.eqb_spec i j) as [Q|D].
    + rewrite <- Q in *. rewrite Hi in Hj. inversion Hj; subst. rewrite Nat.eqb_refl. auto.
    + replace (j =? i) with false by (symmetry; apply Nat.eqb_neq; auto). auto.
  - intros j Hj. destruct (Nat.eqb_spec j i) as [Q|D]; [rewrite Q in *|]; auto.
    assert (i < length l) by (apply nth_error_Some; congruence). lia.
Qed.

Lemma fits_new : forall kf on l t v, fits kf on l -> t_what t = kf (length l) ->
  t_run t = match v with Some _ => true | None => false end ->
  fits kf (upd_on on (length l) v) (l ++ [Some t]).
Proof.
  intros kf on l t v (F1 & F2 & F3) W R. unfold fits, upd_on. rewrite app_length. cbn [length]. split; [|split].
  - intros j t' Hj. destruct (Nat.lt_ge_cases j (length l)) as [L|L].
    + rewrite nth_error_app1 in Hj; auto. replace (j =? length l) with false by (symmetry; apply Nat.eqb_neq; lia). auto.
    + rewrite nth_error_app2 in Hj; auto. destruct (j - length l) as [|m] eqn:Q; cbn in Hj; [|destruct m; discriminate].
      assert (j = length l) by lia. subst j. rewrite Nat.eqb_refl. inversion Hj; subst. auto.
  - intros j Hj. destruct (Nat.lt_ge_cases j (length l)) as [L|L].
    + rewrite nth_error_app1 in Hj; auto. replace (j =? length l) with false by (symmetry; apply Nat.eqb_neq; lia). auto.
    + rewrite nth_error_app2 in Hj; auto. destruct (j - length l) as [|m]; cbn in Hj; [discriminate|destruct m; discriminate].
  - intros j Hj. replace (j =? length l) with false by (symmetry; apply Nat.eqb_neq; lia). apply F3. lia.
Qed.

Lemma thread_il : forall cs l l' secs kf on,
  thread_run l cs = Some (l', secs) -> (forall o, In o l' -> o = None) -> no_copy cs -> fits kf on l ->
  (forall j k, nth_error (kinds cs) j = Some k -> kf (length l + j) = k) ->
  interleave (map (fun i => emit (kf i) (on i) (events i (length l) cs)) (seq 0 (length l + length (kinds cs)))) secs /\
  forall i, on_end (on i) (events i (length l) cs) = None.
Proof.
  induction cs as [|c cs IH]; intros l l' secs kf on R AN NC F K.
  - cbn in R. inversion R; subst. cbn [kinds length events emit on_end]. split.
    + apply IlNil. apply Forall_forall. intros x Hx. apply in_map_iff in Hx. destruct Hx as (j & <- & _). auto.
    + intros i. destruct F as (F1 & F2 & F3). destruct (nth_error l' i) as [o|] eqn:E.
      * apply F2. rewrite E. f_equal. apply AN. eapply nth_error_In; eauto.
      * apply F3. apply nth_error_None. auto.
  - cbn [thread_run] in R. destruct (call_step l c) as [[l1 s1]|] eqn:St; [|discriminate].
    destruct (thread_run l1 cs) as [[l2 s2]|] eqn:R2; [|discriminate]. inversion R; subst l' secs; clear R.
    assert (NC' : no_copy cs) by (intros i Hi; apply (NC i); right; auto).
    destruct c as [k s t|w|i s t|i t|i t|i]; cbn [call_step] in St.
    + (* CNew *)
      cbn in St. inversion St; subst l1 s1; clear St.
      assert (Kn : kf (length l) = k) by (rewrite <- (K 0 k eq_refl); f_equal; lia).
      destruct (IH _ _ _ kf (upd_on on (length l) (Some (s, t))) R2 AN NC') as (I1 & I2).
      { apply fits_new; auto. }
      { intros j k' Hj. rewrite app_length. cbn [length]. rewrite <- (K (S j) k' Hj). f_equal. lia. }
      rewrite app_length in I1, I2. cbn [length] in I1, I2. replace (length l + 1) with (S (length l)) in * by lia.
      assert (On : on (length l) = None) by (apply F; auto).
      cbn [kinds length events]. split.
      * replace (length l + S (length (kinds cs))) with (S (length l) + length (kinds cs)) by lia.
        eapply (il_at _ _ _ (length l)); [lia| | |exact I1].
        -- intros j D. cbv beta. unfold upd_on. replace (j =? length l) with false by (symmetry; apply Nat.eqb_neq; auto). auto.
        -- cbv beta. unfold upd_on. rewrite Nat.eqb_refl, On. cbn [app emit]. rewrite Kn. reflexivity.
      * intros i. specialize (I2 i). unfold upd_on in I2. destruct (Nat.eqb_spec i (length l)) as [Q|D].
        -- rewrite Q in *. rewrite On. cbn [app on_end]. auto.
        -- auto.
    + (* CNewOff *)
      inversion St; subst l1 s1; clear St.
      assert (Kn : kf (length l) = WWait w) by (rewrite <- (K 0 _ eq_refl); f_equal; lia).
      destruct (IH _ _ _ kf (upd_on on (length l) None) R2 AN NC') as (I1 & I2).
      { apply fits_new; auto. }
      { intros j k' Hj. rewrite app_length. cbn [length]. rewrite <- (K (S j) k' Hj). f_equal. lia. }
      rewrite app_length in I1, I2. cbn [length] in I1, I2. replace (length l + 1) with (S (length l)) in * by lia.
      assert (On : forall i, upd_on on (length l) None i = on i).
      { intros i. unfold upd_on. destruct (Nat.eqb_spec i (length l)) as [Q|D]; [rewrite Q in *|]; auto. symmetry. apply F. auto. }
      cbn [kinds length events app]. split.
      * replace (length l + S (length (kinds cs))) with (S (length l) + length (kinds cs)) by lia.
        eapply il_same; [|exact I1]. intros j. cbv beta. rewrite On. auto.
      * intros i. rewrite <- On. auto.
    + (* CStart *)
      destruct (nth_error l i) as [[t0|]|] eqn:Hi; try discriminate.
      assert (Li : i < length l) by (apply nth_error_Some; congruence).
      destruct F as (F1 & F2 & F3). destruct (F1 i t0 Hi) as (W & Rn).
      set (v := match on i with None => Some (s, t) | Some x => Some x end).
      assert (Q : l1 = put i (Some (MkT (kf i) true)) l /\ s1 = match on i with None => begins (kf i) s t | Some _ => [] end).
      { unfold t_start in St. rewrite Rn in St. destruct (on i) as [p|] eqn:O; cbn [negb] in St; inversion St; subst.
        - split; auto. f_equal. f_equal. destruct t0; cbn in *; congruence.
        - rewrite W. auto. }
      destruct Q as (-> & ->).
      destruct (IH _ _ _ kf (upd_on on i v) R2 AN NC') as (I1 & I2).
      { apply (fits_put kf on l i t0); auto; [split; [|split]; auto|]. cbn. split; auto. unfold v. destruct (on i); auto. }
      { intros j k' Hj. rewrite put_length. apply K. auto. }
      rewrite put_length in I1, I2. cbn [kinds events]. split.
      * eapply (il_at _ _ _ i); [lia| | |exact I1].
        -- intros j D. cbv beta. unfold upd_on. replace (j =? i) with false by (symmetry; apply Nat.eqb_neq; auto). auto.
        -- cbv beta. unfold upd_on, v. rewrite Nat.eqb_refl. cbn [app emit]. destruct (on i); auto.
      * intros j. specialize (I2 j). unfold upd_on in I2. destruct (Nat.eqb_spec j i) as [Q|D]; [rewrite Q in *|]; auto.
    + (* CStop *)
      destruct (nth_error l i) as [[t0|]|] eqn:Hi; try discriminate.
      assert (Li : i < length l) by (apply nth_error_Some; congruence).
      destruct F as (F1 & F2 & F3). destruct (F1 i t0 Hi) as (W & Rn).
      assert (Q : l1 = put i (Some (MkT (kf i) false)) l /\ s1 = match on i with Some _ => ends (kf i) t | None => [] end).
      { unfold t_stop in St. rewrite Rn in St. destruct (on i) as [p|] eqn:O; inversion St; subst.
        - rewrite W. auto.
        - split; auto. f_equal. f_equal. destruct t0; cbn in *; congruence. }
      destruct Q as (-> & ->).
      destruct (IH _ _ _ kf (upd_on on i None) R2 AN NC') as (I1 & I2).
      { apply (fits_put kf on l i t0); auto. split; [|split]; auto. }
      { intros j k' Hj. rewrite put_length. apply K. auto. }
      rewrite put_length in I1, I2. cbn [kinds events]. split.
      * eapply (il_at _ _ _ i); [lia| | |exact I1].
        -- intros j D. cbv beta. unfold upd_on. replace (j =? i) with false by (symmetry; apply Nat.eqb_neq; auto). auto.
        -- cbv beta. unfold upd_on. rewrite Nat.eqb_refl. cbn [app emit]. destruct (on i); auto.
      * intros j. specialize (I2 j). unfold upd_on in I2. destruct (Nat.eqb_spec j i) as [Q|D]; [rewrite Q in *|]; auto.
    + (* CDel *)
      destruct (nth_error l i) as [[t0|]|] eqn:Hi; try discriminate.
      assert (Li : i < length l) by (apply nth_error_Some; congruence).
      destruct F as (F1 & F2 & F3). destruct (F1 i t0 Hi) as (W & Rn).
      assert (Q : l1 = put i None l /\ s1 = match on i with Some _ => ends (kf i) t | None => [] end).
      { unfold t_stop in St. rewrite Rn in St. destruct (on i) as [p|] eqn:O; inversion St; subst; [rewrite W|]; auto. }
      destruct Q as (-> & ->).
      destruct (IH _ _ _ kf (upd_on on i None) R2 AN NC') as (I1 & I2).
      { apply (fits_put kf on l i t0); auto. split; [|split]; auto. }
      { intros j k' Hj. rewrite put_length. apply K. auto. }
      rewrite put_length in I1, I2. cbn [kinds events]. split.
      * eapply (il_at _ _ _ i); [lia| | |exact I1].
        -- intros j D. cbv beta. unfold upd_on. replace (j =? i) with false by (symmetry; apply Nat.eqb_neq; auto). auto.
        -- cbv beta. unfold upd_on. rewrite Nat.eqb_refl. cbn [app emit]. destruct (on i); auto.
      * intros j. specialize (I2 j). unfold upd_on in I2. destruct (Nat.eqb_spec j i) as [Q|D]; [rewrite Q in *|]; auto.
    + exfalso. apply (NC i). left. auto.
Qed.

Lemma ops_from_concat : forall ks i cs,
  ops_from i ks cs = concat (map (fun j => map (op_for (nth (j - i) ks (WWait WaitAny))) (spans None (events j 0 cs))) (seq i (length ks))).
Proof.
  induction ks as [|k ks IH]; intros i cs; cbn [ops_from length seq map concat]; auto.
  rewrite Nat.sub_diag. cbn [nth]. f_equal. rewrite IH. f_equal. apply map_ext_in. intros j Hj. apply in_seq in Hj.
  replace (j - i) with (S (j - S i)) by lia. reflexivity.
Qed.

Lemma complete_il : forall cs secs, complete cs secs -> no_copy cs -> interleave (map program (measured cs)) secs.
Proof.
  intros cs secs (l & R & AN) NC. set (kf := fun i => nth i (kinds cs) (WWait WaitAny)).
  destruct (thread_il cs [] l secs kf (fun _ => None) R AN NC) as (I1 & I2).
  - split; [intros [|i] t; discriminate|split; [intros [|i]; discriminate|auto]].
  - intros j k Hj. unfold kf. cbn. erewrite nth_error_nth; eauto.
  - cbn [length] in *. unfold measured. rewrite ops_from_concat, concat_map, map_map.
    apply (il_concats _ _ []). cbn [app]. rewrite map_map. rewrite Nat.add_0_l in I1.
    erewrite map_ext; [exact I1|]. intros i. cbv beta. rewrite Nat.sub_0_r.
    symmetry. exact (emit_spans (kf i) (events i 0 cs) None (I2 i)).
Qed.
