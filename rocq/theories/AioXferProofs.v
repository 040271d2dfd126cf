(** The kernel AIO queue transfers bytes the way AsyncModel says. *)

From Coq Require Import ZArith List Bool Lia.
From Verif Require Import WriterProofs LioModel LioSpec LioProofs AioXferModel AioXferSpec.
From Verif Require AsyncModel AsyncSpec AsyncProofs XferProofs.
Import ListNotations.

Lemma put_same : forall A i (x : A) f, put i x f i = x.
Proof. intros. unfold put. rewrite Nat.eqb_refl. auto. Qed.
Lemma put_other : forall A i (x : A) f j, j <> i -> put i x f j = f j.
Proof. intros A i x f j H. unfold put. apply Nat.eqb_neq in H. rewrite H. auto. Qed.

(** Requests that are posted, and neither transferred nor removed. *)
Definition flying (q : st) (i : nat) : Prop := In i (waiting q) \/ In i (p_reqs (poster q)) \/ In i (infl q).

Definition fcnt (q : st) (i : nat) : nat := cnt i (waiting q) + cnt i (p_reqs (poster q)) + cnt i (infl q).
Lemma flying_cnt : forall q i, flying q i <-> 1 <= fcnt q i.
Proof. intros q i. unfold flying, fcnt. rewrite !cnt_In. lia. Qed.

Lemma fcnt_le : forall max q i, Inv max q -> fcnt q i <= 1.
Proof. intros max q i V. pose proof (I_all _ _ V i). pose proof (I_once _ _ V i). unfold fcnt. lia. Qed.

Lemma flying_added : forall max q i, Inv max q -> flying q i -> In i (added q).
Proof. intros max q i V F. apply flying_cnt in F. unfold fcnt in F. apply cnt_In. pose proof (I_all _ _ V i). lia. Qed.

Lemma handled_landed : forall max q i b, Inv max q -> In (i, b) (handled q) -> ~ flying q i.
Proof.
  intros max q i b V H F. apply flying_cnt in F. unfold fcnt in F.
  assert (C : 1 <= cnt i (ccalls q)). { rewrite <- (I_hand _ _ V). apply cnt_In. change i with (fst (i, b)). apply in_map. auto. }
  pose proof (I_all _ _ V i). pose proof (I_once _ _ V i). lia.
Qed.

Lemma compl_cnt : forall i l, In (C_compl i) l -> 1 <= cnt i (flat_map c_rem l).
Proof. intros i l H. apply cnt_In. apply in_flat_map. exists (C_compl i). split; auto. left; auto. Qed.

(** What a step does to the requests under way. *)
Ltac nolist := repeat match goal with
  | H : ?l = ?x :: ?l |- _ => exfalso; apply (f_equal (@length _)) in H; cbn in H; lia
  end.

Lemma complete_same : forall q i b, waiting (complete q i b) = waiting q /\ poster (complete q i b) = poster q /\
  infl (complete q i b) = infl q /\ added (complete q i b) = added q /\ cancelers (complete q i b) = cancelers q.
Proof. intros. unfold complete. destruct (existsb _ _); cbn; auto. Qed.

Lemma hstep_same : forall b q h q' h', hstep b q h q' h' -> waiting q' = waiting q /\ poster q' = poster q /\
  infl q' = infl q /\ added q' = added q /\ cancelers q' = cancelers q.
Proof.
  intros b q h q' h' H. destruct H; unf; cbn; auto. apply complete_same.
Qed.

(** Every step posts, ends, removes, or leaves alone. *)
Inductive kindof (q q' : st) : Prop :=
| K_quiet : quiet q q' -> length (cancelers q') <= length (cancelers q) -> (forall i, fcnt q' i = fcnt q i) -> kindof q q'
| K_post : forall i, added q' = i :: added q -> ~ In i (added q) -> infl q' = infl q -> cancelers q' = cancelers q ->
    (forall j, fcnt q' j = fcnt q j + (if Nat.eqb j i then 1 else 0)) -> kindof q q'
| K_end : forall l1 i l2, infl q = l1 ++ i :: l2 -> infl q' = l1 ++ l2 -> added q' = added q -> cancelers q' = cancelers q ->
    (forall j, fcnt q' j + (if Nat.eqb j i then 1 else 0) = fcnt q j) -> kindof q q'
| K_erase : forall i, In i (waiting q) -> cancelers q' = C_compl i :: cancelers q -> added q' = added q -> infl q' = infl q ->
    (forall j, fcnt q' j + (if Nat.eqb j i then 1 else 0) = fcnt q j) -> kindof q q'.

Lemma step_kind : forall max ps q q', Inv max q -> step max false ps q q' -> kindof q q'.
Proof.
  intros max ps q q' V H. pose proof (I_plain _ _ V) as Pl. destruct H.
  - eapply (K_post _ _ i); unf; unfold fcnt; fields; auto. intros j. cnts. lia.
  - apply K_quiet; unf; unfold quiet, fcnt; fields; auto. csplit; auto. apply incl_refl.
  - apply K_quiet; unf; unfold quiet, fcnt; fields; rewrite ?H0; auto. csplit; auto. apply incl_refl.
  - apply K_quiet; unf; unfold quiet, fcnt; fields; rewrite ?H0; auto. csplit; auto. apply incl_refl.
  - apply K_quiet; unf; unfold quiet, fcnt; fields; rewrite ?H0; auto. csplit; auto. apply incl_refl.
  - apply K_quiet; unf; unfold quiet, fcnt; fields; rewrite ?H0, ?H2; [csplit; auto; apply incl_refl|auto|]; intros j. cnts. lia.
  - apply K_quiet; unf; unfold quiet, fcnt; fields; rewrite ?H0; auto. csplit; auto. apply incl_refl.
  - apply K_quiet; unf; unfold quiet, fcnt; fields; rewrite ?H0; auto. csplit; auto. apply incl_refl.
  - apply K_quiet; unf; unfold quiet, fcnt; fields; rewrite ?H0; auto. csplit; auto. apply incl_refl.
  - apply K_quiet; unf; unfold quiet, fcnt; fields; rewrite ?H0, ?H2; [csplit; auto; apply incl_refl|auto|]; intros j. cnts. lia.
  - apply K_quiet; unf; unfold quiet, fcnt; fields; rewrite ?H0; auto. csplit; auto. apply incl_refl.
  - apply K_quiet; unf; unfold quiet, fcnt; fields; rewrite ?H0; [csplit; auto; apply incl_appl, incl_refl|auto|];
    intros j. cnts. lia.
  - apply K_quiet; unf; unfold quiet, fcnt; fields; rewrite ?H0; auto. csplit; auto. apply incl_refl.
  - apply K_quiet; unf; unfold quiet, fcnt; fields; rewrite ?H0; [csplit; auto; apply incl_refl|auto|]; intros j. destruct c; cnts; lia.
  - apply K_quiet; unf; unfold quiet, fcnt; fields; rewrite ?H0; [csplit; auto; apply incl_refl|auto|]; intros j. destruct e; cnts; lia.
  - destruct (hstep_same _ _ _ _ _ H1) as (A & B & C & D & E).
    apply K_quiet; unf; unfold quiet, fcnt; fields; rewrite ?A, ?C, ?D, ?E, ?H0; [csplit; auto; apply incl_refl|auto|]; 
    intros j. destruct h'; cnts; lia.
  - apply K_quiet; unf; unfold quiet, fcnt; fields; auto. csplit; auto. apply incl_refl.
  - apply K_quiet; unf; unfold quiet, fcnt; fields; auto. csplit; auto. apply incl_refl.
  - apply K_quiet; unf; unfold quiet, fcnt; fields; auto. csplit; auto. apply incl_refl.
  - destruct (hstep_same _ _ _ _ _ H1) as (A & B & C & D & E).
    apply K_quiet; unf; unfold quiet, fcnt; fields; rewrite ?A, ?B, ?C, ?D, ?E; [csplit; auto; apply incl_refl|auto|]; auto.
  - eapply (K_end _ _ a i b); unf; unfold fcnt; fields; auto. intros j. rewrite H0. cnts. lia.
  - eapply (K_erase _ _ i); unf; unfold fcnt; fields; auto.
    + rewrite H1. apply in_elt.
    + intros j. rewrite H1. cnts. lia.
  - destruct (complete_same s i true) as (A & B & C & D & E).
    apply K_quiet; unf; unfold quiet, fcnt; fields; rewrite ?A, ?B, ?C, ?D; auto; [csplit; auto; [apply incl_refl|]|].
    + intros j. rewrite H0, !in_app_iff. cbn. intros [X|[X|X]]; auto. discriminate.
    + rewrite H0, !app_length. cbn. lia.
  - apply K_quiet; unf; unfold quiet, fcnt; fields; auto; [csplit; auto; [apply incl_refl|]|].
    + intros j. rewrite H0, !in_app_iff. cbn. tauto.
    + rewrite H0, !app_length. cbn. lia.
  - discriminate.
  - rewrite H0 in Pl. apply Forall_app in Pl. destruct Pl as (_ & P). inversion P; contradiction.
  - rewrite H0 in Pl. apply Forall_app in Pl. destruct Pl as (_ & P). inversion P; contradiction.
  - rewrite H0 in Pl. apply Forall_app in Pl. destruct Pl as (_ & P). inversion P; contradiction.
  - rewrite H0 in Pl. apply Forall_app in Pl. destruct Pl as (_ & P). inversion P; contradiction.
  - rewrite H0 in Pl. apply Forall_app in Pl. destruct Pl as (_ & P). inversion P; contradiction.
Qed.

(** Which kind it is, from what the model of the bytes asks. *)
Lemma kind_quiet : forall max q q', Inv max q -> Inv max q' -> kindof q q' -> quiet q q' -> forall i, fcnt q' i = fcnt q i.
Proof.
  intros max q q' V V' K Q. destruct Q as (Q1 & Q2 & Q3). destruct K as [_ _ K|i K1 K2 K3 K4 K5|l1 i l2 K1 K2 K3 K4 K5|i K1 K2 K3 K4 K5]; auto.
  - exfalso. rewrite Q1 in K1. apply (f_equal (@length _)) in K1. cbn in K1. lia.
  - exfalso. assert (I : In i (infl q')) by (apply Q2; rewrite K1; apply in_elt).
    apply cnt_In in I. pose proof (fcnt_le _ _ i V). unfold fcnt in H. rewrite K2 in I. rewrite K1 in H. revert I H. cnts. rewrite Nat.eqb_refl. lia.
  - exfalso. assert (I : In (C_compl i) (cancelers q)) by (apply Q3; rewrite K2; left; auto).
    apply compl_cnt in I. apply cnt_In in K1. pose proof (I_all _ _ V i). pose proof (I_once _ _ V i). lia.
Qed.

Lemma kind_post : forall q q' i, kindof q q' -> added q' = i :: added q ->
  ~ In i (added q) /\ infl q' = infl q /\ forall j, fcnt q' j = fcnt q j + (if Nat.eqb j i then 1 else 0).
Proof.
  intros q q' i K E. destruct K as [(Q1 & _) _ _|i' K1 K2 K3 K4 K5|l1 i' l2 K1 K2 K3 K4 K5|i' K1 K2 K3 K4 K5].
  - exfalso. rewrite Q1 in E. apply (f_equal (@length _)) in E. cbn in E. lia.
  - rewrite K1 in E. inversion E; subst. auto.
  - exfalso. rewrite K3 in E. apply (f_equal (@length _)) in E. cbn in E. lia.
  - exfalso. rewrite K3 in E. apply (f_equal (@length _)) in E. cbn in E. lia.
Qed.

Lemma kind_end : forall max q q' l1 i l2, Inv max q -> kindof q q' -> infl q = l1 ++ i :: l2 -> infl q' = l1 ++ l2 ->
  added q' = added q /\ forall j, fcnt q' j + (if Nat.eqb j i then 1 else 0) = fcnt q j.
Proof.
  intros max q q' l1 i l2 V K E E'.
  assert (L : length (infl q) = S (length (infl q'))) by (rewrite E, E', !app_length; cbn; lia).
  destruct K as [(Q1 & Q2 & Q3) Q4 _|i' K1 K2 K3 K4 K5|m1 i' m2 K1 K2 K3 K4 K5|i' K1 K2 K3 K4 K5]; try (exfalso; congruence || lia).
  - exfalso. assert (I : In i (infl q')) by (apply Q2; rewrite E; apply in_elt).
    apply cnt_In in I. pose proof (fcnt_le _ _ i V). unfold fcnt in H. rewrite E in H. rewrite E' in I. revert I H. cnts. rewrite Nat.eqb_refl. lia.
  - rewrite K3 in L. lia.
  - assert (Q : i' = i).
    { assert (X : cnt i (infl q') + 1 = cnt i (infl q)) by (rewrite E, E'; cnts; rewrite Nat.eqb_refl; lia).
      rewrite K1, K2 in X. revert X. cnts. destruct (Nat.eqb_spec i i'); auto. lia. }
    subst i'. auto.
  - rewrite K4 in L. lia.
Qed.

Lemma kind_erase : forall q q' i, kindof q q' -> cancelers q' = C_compl i :: cancelers q ->
  In i (waiting q) /\ added q' = added q /\ infl q' = infl q /\ forall j, fcnt q' j + (if Nat.eqb j i then 1 else 0) = fcnt q j.
Proof.
  intros q q' i K E. destruct K as [(Q1 & Q2 & Q3) Q4 _|i' K1 K2 K3 K4 K5|m1 i' m2 K1 K2 K3 K4 K5|i' K1 K2 K3 K4 K5].
  - exfalso. rewrite E in Q4. cbn in Q4. lia.
  - exfalso. rewrite K4 in E. apply (f_equal (@length _)) in E. cbn in E. lia.
  - exfalso. rewrite K4 in E. apply (f_equal (@length _)) in E. cbn in E. lia.
  - rewrite K2 in E. inversion E; subst. auto.
Qed.

Lemma handled_mono : forall max pc ps q q' x, step max pc ps q q' -> In x (handled q) -> In x (handled q').
Proof.
  assert (C : forall q i b x, In x (handled q) -> In x (handled (complete q i b))).
  { intros. unfold complete. destruct (existsb _ _); cbn; auto. }
  assert (Hs : forall b q h q' h' x, hstep b q h q' h' -> In x (handled q) -> In x (handled q')).
  { intros b q h q' h' x H I. destruct H; unf; cbn; auto. }
  intros max pc ps q q' x H I. destruct H; unf; cbn [handled]; eauto.
Qed.

Definition fits (s : world) (e : AsyncModel.entry) : Prop :=
  a_par s (AsyncModel.e_id e) = Some (AsyncModel.e_client e, AsyncModel.e_req e) /\
  flying (a_q s) (AsyncModel.e_id e) /\ AsyncModel.e_todo e = a_todo s (AsyncModel.e_id e) /\
  (~ In (AsyncModel.e_id e) (infl (a_q s)) -> AsyncModel.e_started e = false).

Record inv (max : nat) (ps : bool) (w : AsyncModel.loc -> Z) (t : list happening) (s : world) (x : AsyncModel.state) : Prop := {
  u_reach : reach max false ps (a_q s);
  u_told : forall c i, In (ATold c i) t -> exists b, In (i, b) (handled (a_q s));
  u_par : forall c i a, In (APost c i a) t <-> a_par s i = Some (c, a);
  u_none : forall i, a_par s i = None <-> ~ In i (added (a_q s));
  u_run : AsyncModel.run (AsyncModel.MkS w []) (views t) x;
  u_val : AsyncModel.s_val x = a_val s;
  u_ids : NoDup (map AsyncModel.e_id (AsyncModel.s_fly x));
  u_pend : AsyncProofs.pend x = AsyncSpec.pending [] (views t);
  u_fits : forall e, In e (AsyncModel.s_fly x) -> fits s e;
  u_has : forall i, flying (a_q s) i -> exists e, In e (AsyncModel.s_fly x) /\ AsyncModel.e_id e = i }.

Lemma inv_begin : forall max ps w, inv max ps w [] (begin max w) (AsyncModel.MkS w []).
Proof.
  intros max ps w. constructor; cbn; try (intros; tauto).
  - apply R_init.
  - intros c i a. split; [intros []|discriminate].
  - constructor.
  - constructor.
  - intros i. unfold flying. cbn. tauto.
Qed.

Section Step.
Variables (max : nat) (ps kf : bool) (w : AsyncModel.loc -> Z).

Lemma inv_quiet : forall t s x q', inv max ps w t s x -> step max false ps (a_q s) q' -> quiet (a_q s) q' ->
  inv max ps w t (MkA q' (a_par s) (a_todo s) (a_val s)) x.
Proof.
  intros t s x q' V T Q. destruct V as [V1 V2 V3 V4 V5 V6 V7 V8 V9 V10].
  pose proof (inv_reach _ _ _ V1) as I1. pose proof (inv_step _ _ _ _ I1 T) as I2.
  pose proof (kind_quiet _ _ _ I1 I2 (step_kind _ _ _ _ I1 T) Q) as F. destruct Q as (Q1 & Q2 & Q3).
  constructor; cbn [a_q a_par a_todo a_val]; auto.
  - eapply R_step; eauto.
  - intros c i H. destruct (V2 c i H) as (b & B). exists b. eapply handled_mono; eauto.
  - intros i. rewrite Q1. apply V4.
  - intros e He. destruct (V9 e He) as (X1 & X2 & X3 & X4). unfold fits. cbn [a_q a_par a_todo]. csplit; auto.
    apply flying_cnt. rewrite F. apply flying_cnt. auto.
  - intros i H. apply V10. apply flying_cnt. rewrite <- F. apply flying_cnt. auto.
Qed.

(** A request leaves: the kernel has ended it, or it was removed. *)
Lemma inv_leave : forall t s x q' i c a h lab, inv max ps w t s x -> step max false ps (a_q s) q' ->
  added q' = added (a_q s) -> (forall j, fcnt q' j + (if Nat.eqb j i then 1 else 0) = fcnt (a_q s) j) ->
  (forall j, j <> i -> In j (infl (a_q s)) -> In j (infl q')) ->
  a_par s i = Some (c, a) -> view h = [lab] ->
  (forall c' j, h <> ATold c' j) -> (forall c' j a', h <> APost c' j a') ->
  (lab = AsyncModel.Done c i \/ lab = AsyncModel.Fail c i \/ lab = AsyncModel.Cancel c i) ->
  (forall l1 e l2, AsyncModel.s_fly x = l1 ++ e :: l2 -> AsyncModel.e_id e = i -> fits s e ->
     AsyncModel.step x (Some lab) (AsyncModel.MkS (AsyncModel.s_val x) (l1 ++ l2))) ->
  exists x', inv max ps w (t ++ [h]) (MkA q' (a_par s) (a_todo s) (a_val s)) x'.
Proof.
  intros t s x q' i c a h lab V T Ad F Inf P HV H1 H2 HL St. destruct V as [V1 V2 V3 V4 V5 V6 V7 V8 V9 V10].
  assert (Fi : flying (a_q s) i). { apply flying_cnt. rewrite <- F, Nat.eqb_refl. lia. }
  pose proof (inv_reach _ _ _ V1) as I1. pose proof (inv_step _ _ _ _ I1 T) as I2.
  destruct (V10 i Fi) as (e & Ie & Eid). pose proof (V9 e Ie) as Fe.
  destruct (in_split _ _ Ie) as (l1 & l2 & Fl). specialize (St l1 e l2 Fl Eid Fe).
  rewrite Fl in V7. destruct (XferProofs.remove_ids _ _ _ V7) as (N1 & N2).
  assert (Ev : views (t ++ [h]) = views t ++ [lab]).
  { unfold views. rewrite flat_map_app. cbn. rewrite HV. auto. }
  exists (AsyncModel.MkS (AsyncModel.s_val x) (l1 ++ l2)).
  constructor; cbn [a_q a_par a_todo a_val AsyncModel.s_val AsyncModel.s_fly]; rewrite ?Ev; auto.
  - eapply R_step; eauto.
  - intros c' j I. apply XferProofs.in_snoc in I. destruct I as [I|I]; [|exfalso; apply (H1 c' j); auto].
    destruct (V2 c' j I) as (b & B). exists b. eapply handled_mono; eauto.
  - intros c' j a'. rewrite <- V3, XferProofs.in_snoc. split; auto. intros [I|I]; auto. exfalso. apply (H2 c' j a'); auto.
  - intros j. rewrite Ad. apply V4.
  - eapply XferProofs.run_app; eauto. apply XferProofs.run_one. exact St.
  - eapply XferProofs.pend_snoc; eauto. unfold AsyncProofs.pend. cbn [AsyncModel.s_fly]. rewrite Fl.
    destruct Fe as (X2 & _). rewrite Eid, P in X2. inversion X2; subst c a. rewrite <- Eid in HL.
    destruct HL as [->|[->| ->]]; cbn [AsyncSpec.after]; symmetry; apply AsyncProofs.filter_id; auto.
  - intros e' I. destruct (V9 e') as (X2 & X3 & X4 & X5).
    { rewrite Fl. apply in_app_iff in I. apply in_app_iff. cbn. tauto. }
    assert (M : AsyncModel.e_id e' <> i). { intros M. apply (N2 e' I). congruence. }
    unfold fits. cbn [a_q a_par a_todo]. csplit; auto.
    apply flying_cnt. apply flying_cnt in X3. specialize (F (AsyncModel.e_id e')). apply Nat.eqb_neq in M. rewrite M in F. lia.
  - intros j C.
    assert (M : j <> i).
    { intros ->. apply flying_cnt in C. specialize (F i). rewrite Nat.eqb_refl in F. pose proof (fcnt_le _ _ i I1). lia. }
    destruct (V10 j) as (e' & I & Eq).
    { apply flying_cnt. apply flying_cnt in C. specialize (F j). lia. }
    exists e'. split; auto.
    rewrite Fl in I. apply in_app_iff in I. apply in_app_iff. destruct I as [I|[I|I]]; auto.
    exfalso. subst e'. congruence.
Qed.

Lemma inv_astep : forall t s x ho s', inv max ps w t s x -> astep max ps kf s ho s' ->
  exists x', inv max ps w (t ++ match ho with Some h => [h] | None => [] end) s' x'.
Proof.
  intros t s x ho s' V St. pose proof (inv_reach _ _ _ (u_reach _ _ _ _ _ _ V)) as I1.
  destruct St as [s q' T Q|s q' c i a T E|s i c a k Ii P Hk|s q' l1 i l2 c a ok T E1 E2 P Ok|s q' i c a T E P|s c i b H|s c a v|s c a].
  - exists x. rewrite app_nil_r. apply inv_quiet; auto.
  - (* post *)
    destruct V as [V1 V2 V3 V4 V5 V6 V7 V8 V9 V10].
    destruct (kind_post _ _ _ (step_kind _ _ _ _ I1 T) E) as (Nw & In1 & F).
    pose proof (proj2 (V4 i) Nw) as P0.
    assert (Fr : forall e, In e (AsyncModel.s_fly x) -> AsyncModel.e_id e <> i).
    { intros e He Q. destruct (V9 e He) as (X1 & _). rewrite Q in X1. congruence. }
    pose proof (AsyncModel.SPost x c i a Fr) as St.
    match type of St with AsyncModel.step _ _ ?y => exists y end.
    assert (Ev : views (t ++ [APost c i a]) = views t ++ [AsyncModel.Post c i a]).
    { unfold views. rewrite flat_map_app. reflexivity. }
    constructor; cbn [a_q a_par a_todo a_val AsyncModel.s_val AsyncModel.s_fly]; rewrite ?Ev; auto.
    + eapply R_step; eauto.
    + intros c' j I. apply XferProofs.in_snoc in I. destruct I as [I|I]; [|discriminate].
      destruct (V2 c' j I) as (b & B). exists b. eapply handled_mono; eauto.
    + intros c' j a'. rewrite XferProofs.in_snoc, V3. unfold put. destruct (Nat.eqb_spec j i) as [Q|D].
      * subst j. rewrite P0. split; [intros [X|X]; congruence|]. intros X. inversion X. auto.
      * split; [intros [X|X]; congruence|auto].
    + intros j. rewrite E. cbn [In]. unfold put. destruct (Nat.eqb_spec j i) as [Q|D].
      * subst j. split; [discriminate|]. intros X. exfalso. apply X. auto.
      * rewrite V4. split; intros X; [intros [Y|Y]; congruence|tauto].
    + eapply XferProofs.run_app; eauto. apply XferProofs.run_one. exact St.
    + rewrite map_app. cbn. apply AsyncProofs.NoDup_snoc; auto. intros I. apply in_map_iff in I. destruct I as (e & Ia & Ib).
      apply (Fr e Ib Ia).
    + eapply XferProofs.pend_snoc; eauto. unfold AsyncProofs.pend. cbn [AsyncModel.s_fly AsyncSpec.after]. rewrite map_app. reflexivity.
    + intros e I. apply XferProofs.in_snoc in I. unfold fits. cbn [a_q a_par a_todo]. destruct I as [I|I].
      * destruct (V9 e I) as (X2 & X3 & X4 & X5). pose proof (Fr e I) as M. rewrite !put_other by auto. csplit; auto.
        -- apply flying_cnt. apply flying_cnt in X3. rewrite F. lia.
        -- rewrite In1. auto.
      * subst e. cbn [AsyncModel.e_id AsyncModel.e_client AsyncModel.e_req AsyncModel.e_todo AsyncModel.e_started].
        rewrite !put_same. csplit; auto. apply flying_cnt. rewrite F, Nat.eqb_refl. lia.
    + intros j C. destruct (Nat.eq_dec j i) as [Q|M].
      * subst j. eexists. split; [apply XferProofs.in_snoc; right; reflexivity|]. reflexivity.
      * destruct (V10 j) as (e & I & Q).
        { apply flying_cnt. apply flying_cnt in C. rewrite F in C. apply Nat.eqb_neq in M. rewrite M in C. lia. }
        exists e. split; auto. apply XferProofs.in_snoc. auto.
  - (* a byte *)
    destruct V as [V1 V2 V3 V4 V5 V6 V7 V8 V9 V10]. rewrite app_nil_r.
    destruct (V10 i) as (e & Ie & Eid); [right; right; auto|].
    destruct (V9 e Ie) as (X2 & X3 & X4 & X5). rewrite Eid in *. rewrite P in X2. inversion X2; subst c a.
    destruct (in_split _ _ Ie) as (l1 & l2 & Fl).
    pose proof (AsyncModel.SMove x l1 e l2 k Fl Hk) as St.
    match type of St with AsyncModel.step _ _ ?y => exists y end.
    rewrite Fl in V7.
    constructor; cbn [a_q a_par a_todo a_val AsyncModel.s_val AsyncModel.s_fly]; auto.
    + rewrite <- (app_nil_r (views t)). eapply XferProofs.run_app; eauto. eapply AsyncModel.RSilent; [exact St|]. constructor.
    + rewrite V6. auto.
    + rewrite map_app in *. exact V7.
    + rewrite <- V8. unfold AsyncProofs.pend. cbn [AsyncModel.s_fly]. rewrite Fl, !map_app. reflexivity.
    + intros e' I. apply in_app_iff in I. unfold fits. cbn [a_q a_par a_todo].
      assert (K : e' = AsyncModel.MkE (AsyncModel.e_client e) (AsyncModel.e_id e) (AsyncModel.e_req e)
        (filter (fun j => negb (Z.eqb j k)) (AsyncModel.e_todo e)) true \/ In e' (l1 ++ l2)).
      { rewrite in_app_iff. cbn in I. intuition. }
      destruct K as [K|K].
      * subst e'. cbn [AsyncModel.e_id AsyncModel.e_client AsyncModel.e_req AsyncModel.e_todo AsyncModel.e_started].
        rewrite Eid, put_same, X4. csplit; auto. intros N. exfalso. auto.
      * destruct (V9 e') as (Y2 & Y3 & Y4 & Y5).
        { rewrite Fl. apply in_app_iff in K. apply in_app_iff. cbn. tauto. }
        destruct (XferProofs.remove_ids _ _ _ V7) as (_ & N2). rewrite put_other by (rewrite <- Eid; apply N2; auto). csplit; auto.
    + intros j C. destruct (V10 j C) as (e' & I & Q). rewrite Fl in I. apply in_app_iff in I.
      destruct I as [I|[I|I]].
      * exists e'. split; auto. apply in_app_iff. auto.
      * subst e'. eexists. split; [apply in_app_iff; right; left; reflexivity|]. exact Q.
      * exists e'. split; auto. apply in_app_iff. right. right. auto.
  - (* the transfer ends *)
    destruct (kind_end _ _ _ _ _ _ I1 (step_kind _ _ _ _ I1 T) E1 E2) as (Ad & F).
    assert (Inf : forall j, j <> i -> In j (infl (a_q s)) -> In j (infl q')).
    { intros j M I. rewrite E1 in I. rewrite E2. apply in_app_iff in I. apply in_app_iff. destruct I as [I|[I|I]]; auto. congruence. }
    destruct ok.
    + eapply (inv_leave t s x q' i c a _ (AsyncModel.Done c i)); eauto; try reflexivity; try discriminate.
      intros m1 e m2 Fl Eid (X2 & X3 & X4 & X5). rewrite Eid in *. rewrite P in X2. inversion X2; subst.
      apply AsyncModel.SDone; auto. congruence.
    + eapply (inv_leave t s x q' i c a _ (AsyncModel.Fail c i)); eauto; try reflexivity; try discriminate.
      intros m1 e m2 Fl Eid (X2 & X3 & X4 & X5). rewrite Eid in *. rewrite P in X2. inversion X2; subst.
      apply AsyncModel.SFail; auto.
  - (* removed *)
    destruct (kind_erase _ _ _ (step_kind _ _ _ _ I1 T) E) as (Wt & Ad & In1 & F).
    eapply (inv_leave t s x q' i c a _ (AsyncModel.Cancel c i)); eauto; try reflexivity; try discriminate.
    + intros j _ I. rewrite In1. auto.
    + intros m1 e m2 Fl Eid (X2 & X3 & X4 & X5). rewrite Eid in *. rewrite P in X2. inversion X2; subst.
      apply AsyncModel.SCancel; auto. apply X5. intros N. apply cnt_In in N. apply cnt_In in Wt.
      pose proof (fcnt_le _ _ (AsyncModel.e_id e) I1) as L. unfold fcnt in L. lia.
  - (* told *)
    exists x. destruct V as [V1 V2 V3 V4 V5 V6 V7 V8 V9 V10].
    assert (Ev : views (t ++ [ATold c i]) = views t) by (unfold views; rewrite flat_map_app; cbn; apply app_nil_r).
    constructor; rewrite ?Ev; auto.
    + intros c' j I. apply XferProofs.in_snoc in I. destruct I as [I|I]; [eauto|]. inversion I; subst. eauto.
    + intros c' j a'. rewrite XferProofs.in_snoc, V3. split; auto. intros [X|X]; auto. discriminate.
  - (* poke *)
    destruct V as [V1 V2 V3 V4 V5 V6 V7 V8 V9 V10].
    exists (AsyncModel.MkS (AsyncModel.upd (AsyncModel.s_val x) (AsyncModel.Mem a) v) (AsyncModel.s_fly x)).
    assert (Ev : views (t ++ [APoke c a v]) = views t ++ [AsyncModel.Poke c a v]) by (unfold views; rewrite flat_map_app; reflexivity).
    constructor; cbn [a_q a_par a_todo a_val AsyncModel.s_val AsyncModel.s_fly]; rewrite ?Ev; auto.
    + intros c' j I. apply XferProofs.in_snoc in I. destruct I as [I|I]; [eauto|discriminate].
    + intros c' j a'. rewrite XferProofs.in_snoc, V3. split; auto. intros [X|X]; auto. discriminate.
    + eapply XferProofs.run_app; eauto. apply XferProofs.run_one. constructor.
    + rewrite V6. auto.
    + eapply XferProofs.pend_snoc; eauto.
  - (* peek *)
    destruct V as [V1 V2 V3 V4 V5 V6 V7 V8 V9 V10].
    exists x.
    assert (Ev : views (t ++ [APeek c a (a_val s (AsyncModel.Mem a))]) = views t ++ [AsyncModel.Peek c a (a_val s (AsyncModel.Mem a))])
      by (unfold views; rewrite flat_map_app; reflexivity).
    constructor; rewrite ?Ev; auto.
    + intros c' j I. apply XferProofs.in_snoc in I. destruct I as [I|I]; [eauto|discriminate].
    + intros c' j a'. rewrite XferProofs.in_snoc, V3. split; auto. intros [X|X]; auto. discriminate.
    + eapply XferProofs.run_app; eauto. apply XferProofs.run_one. rewrite <- V6. constructor.
    + eapply XferProofs.pend_snoc; eauto.
Qed.

Lemma inv_history : forall t s, history max ps kf (begin max w) t s -> exists x, inv max ps w t s x.
Proof.
  intros t s H. induction H as [|t s s' H IH St|t s h s' H IH St].
  - eexists. apply inv_begin.
  - destruct IH as (x & V). destruct (inv_astep _ _ _ _ _ V St) as (x' & V'). rewrite app_nil_r in V'. eauto.
  - destruct IH as (x & V). destruct (inv_astep _ _ _ _ _ V St) as (x' & V'). eauto.
Qed.

End Step.
