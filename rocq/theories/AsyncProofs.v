(** Asynchronous transfers: simulation. *)

From Coq Require Import ZArith List Bool Lia.
From Verif Require Import WriterProofs AsyncModel AsyncSpec.
Import ListNotations.
Local Open Scope Z_scope.

Lemma loc_eqb_spec : forall l m, reflect (l = m) (loc_eqb l m).
Proof.
  intros [a|f o] [b|g p]; cbn; try (constructor; congruence).
  - destruct (Z.eqb_spec a b); constructor; congruence.
  - destruct (Nat.eqb_spec f g), (Z.eqb_spec o p); cbn; constructor; congruence.
Qed.

Lemma upd_same : forall f l v, upd f l v l = v.
Proof. intros. unfold upd. destruct (loc_eqb_spec l l); congruence. Qed.
Lemma upd_other : forall f l v m, m <> l -> upd f l v m = f m.
Proof. intros. unfold upd. destruct (loc_eqb_spec m l); congruence. Qed.

Lemma dst_inj : forall r k j, dst r k = dst r j -> k = j.
Proof. intros r k j. unfold dst. destruct (r_write r); intros H; inversion H; lia. Qed.
Lemma src_dst : forall r k j, src r k <> dst r j.
Proof. intros r k j. unfold src, dst. destruct (r_write r); discriminate. Qed.

Lemma in_offsets : forall n k, In k (offsets n) <-> 0 <= k < n.
Proof.
  intros n k. unfold offsets. rewrite in_map_iff. split.
  - intros (x & <- & H). apply in_seq in H. lia.
  - intros H. exists (Z.to_nat k). split; [lia|]. apply in_seq. lia.
Qed.

Lemma changes_dec : forall r l, {changes r l} + {~ changes r l}.
Proof.
  intros r l.
  destruct (existsb (fun k => loc_eqb l (dst r k)) (offsets (r_size r))) eqn:E.
  - left. apply existsb_exists in E. destruct E as (k & Hk & E). apply in_offsets in Hk. exists k. split; auto.
    destruct (loc_eqb_spec l (dst r k)); congruence.
  - right. intros (k & Hk & ->). assert (T : existsb (fun j => loc_eqb (dst r k) (dst r j)) (offsets (r_size r)) = true).
    { apply existsb_exists. exists k. split; [apply in_offsets; auto|]. destruct (loc_eqb_spec (dst r k) (dst r k)); congruence. }
    congruence.
Qed.

Lemma changes_uses : forall r l, changes r l -> uses r l.
Proof. intros r l (k & H & E). exists k. auto. Qed.
Lemma conflict_sym : forall r q, conflict r q -> conflict q r.
Proof. intros r q (l & [(A & B)|(A & B)]); exists l; auto. Qed.

Definition tag (e : entry) : posted := (e_client e, e_id e, e_req e).
Definition pend (s : state) : list posted := map tag (s_fly s).

Record sim (s : state) (w : loc -> Z) : Prop := {
  sm_ids : NoDup (map e_id (s_fly s));
  sm_sep : forall e e', In e (s_fly s) -> In e' (s_fly s) -> e_id e <> e_id e' -> ~ conflict (e_req e) (e_req e');
  sm_out : forall l, (forall e, In e (s_fly s) -> ~ changes (e_req e) l) -> s_val s l = w l;
  sm_moved : forall e k, In e (s_fly s) -> 0 <= k < r_size (e_req e) -> ~ In k (e_todo e) ->
    s_val s (dst (e_req e) k) = w (src (e_req e) k);
  sm_idle : forall e k, In e (s_fly s) -> 0 <= k < r_size (e_req e) -> e_started e = false ->
    s_val s (dst (e_req e) k) = w (dst (e_req e) k) }.

Lemma NoDup_snoc : forall {A} (l : list A) x, NoDup l -> ~ In x l -> NoDup (l ++ [x]).
Proof.
  induction l as [|a l IH]; intros x N I; cbn; [constructor; auto; constructor|]. inversion N; subst. constructor.
  - rewrite in_app_iff. cbn. intros [H|[H|[]]]; auto. apply I. left; auto.
  - apply IH; auto. intros H. apply I. right; auto.
Qed.

Lemma same_entry : forall s w e e', sim s w -> In e (s_fly s) -> In e' (s_fly s) -> e_id e = e_id e' -> e = e'.
Proof.
  intros s w e e' M. pose proof (sm_ids _ _ M) as N. revert N. generalize (s_fly s). clear.
  induction l as [|a l IH]; intros N H1 H2 Q; [destruct H1|]. cbn in N. inversion N as [|? ? N1 N2]; subst.
  destruct H1 as [<-|H1], H2 as [<-|H2]; auto.
  - exfalso. apply N1. rewrite Q. apply in_map; auto.
  - exfalso. apply N1. rewrite <- Q. apply in_map; auto.
Qed.

Lemma src_stable : forall s w e k, sim s w -> In e (s_fly s) -> 0 <= k < r_size (e_req e) ->
  s_val s (src (e_req e) k) = w (src (e_req e) k).
Proof.
  intros s w e k M He Hk. apply (sm_out _ _ M). intros e' He' C.
  destruct (Nat.eq_dec (e_id e) (e_id e')) as [Q|D].
  - pose proof (same_entry _ _ _ _ M He He' Q) as E.
    subst e'. destruct C as (j & _ & C). eapply src_dst; eauto.
  - apply (sm_sep _ _ M _ _ He He' D). exists (src (e_req e) k). right. split; auto. exists k. auto.
Qed.

Lemma filter_id : forall l1 (e : entry) l2, NoDup (map e_id (l1 ++ e :: l2)) ->
  filter (fun x => negb (is_posted (e_client e) (e_id e) x)) (map tag (l1 ++ e :: l2)) = map tag (l1 ++ l2).
Proof.
  intros l1 e l2 N. rewrite map_app in N. cbn in N. apply NoDup_remove in N. destruct N as (_ & N).
  rewrite !map_app, filter_app. cbn [map filter]. unfold is_posted at 2. cbn [tag fst snd]. rewrite !Nat.eqb_refl. cbn [andb negb].
  assert (F : forall l, (forall x, In x l -> e_id x <> e_id e) ->
    filter (fun x => negb (is_posted (e_client e) (e_id e) x)) (map tag l) = map tag l).
  { induction l as [|x l IH]; intros H; cbn; auto. unfold is_posted at 1. cbn [tag fst snd].
    destruct (Nat.eqb_spec (e_id x) (e_id e)) as [Q|D].
    - exfalso. apply (H x); auto. left; auto.
    - rewrite andb_false_r. cbn. f_equal. apply IH. intros y Hy. apply H. right; auto. }
  rewrite !F; auto; intros x Hx Q; apply N; rewrite in_app_iff, <- Q; [right|left]; apply in_map; auto.
Qed.

(** Removing a request: the new sequential values [w'] agree with the bytes on its range, and
    with [w] elsewhere. *)
Lemma sim_remove : forall s w l1 e l2 w', sim s w -> s_fly s = l1 ++ e :: l2 ->
  (forall k, 0 <= k < r_size (e_req e) -> w' (dst (e_req e) k) = s_val s (dst (e_req e) k)) ->
  (forall m, ~ changes (e_req e) m -> w' m = w m) ->
  sim (MkS (s_val s) (l1 ++ l2)) w'.
Proof.
  intros s w l1 e l2 w' M F H1 H2.
  assert (I : forall x, In x (l1 ++ l2) -> In x (s_fly s)).
  { intros x. rewrite F, !in_app_iff. cbn. tauto. }
  assert (J : In e (s_fly s)) by (rewrite F, in_app_iff; cbn; auto).
  assert (N : forall x, In x (l1 ++ l2) -> e_id x <> e_id e).
  { intros x Hx Q. pose proof (sm_ids _ _ M) as N. rewrite F, map_app in N. cbn in N. apply NoDup_remove in N.
    apply (proj2 N). rewrite <- map_app, <- Q. apply in_map; auto. }
  assert (O : forall x l, In x (l1 ++ l2) -> uses (e_req x) l -> ~ changes (e_req e) l).
  { intros x l Hx U C. apply (sm_sep _ _ M x e (I _ Hx) J (N _ Hx)). exists l. auto. }
  constructor; cbn [s_val s_fly].
  - pose proof (sm_ids _ _ M) as K. rewrite F, map_app in K. cbn in K. apply NoDup_remove in K. rewrite map_app. apply K.
  - intros a b Ha Hb. apply (sm_sep _ _ M); auto.
  - intros l Hl. destruct (changes_dec (e_req e) l) as [(k & Hk & ->)|C].
    + symmetry. auto.
    + rewrite H2; auto. apply (sm_out _ _ M). intros x Hx. rewrite F in Hx. apply in_app_iff in Hx.
      destruct Hx as [Hx|[<-|Hx]]; auto; apply Hl; apply in_app_iff; auto.
  - intros x k Hx Hk T. rewrite H2; [apply (sm_moved _ _ M); auto|]. apply (O x); auto. exists k; auto.
  - intros x k Hx Hk T. rewrite H2; [apply (sm_idle _ _ M); auto|]. apply (O x); auto. exists k; auto.
Qed.

Lemma sim_silent : forall s s' w, sim s w -> step s None s' -> sim s' w /\ pend s' = pend s.
Proof.
  intros s s' w M H. inversion H as [| | |s0 l1 e l2 k F Hk| | |]; subst. clear H.
  assert (J : In e (s_fly s)) by (rewrite F, in_app_iff; cbn; auto).
  set (e' := MkE (e_client e) (e_id e) (e_req e) (filter (fun j => negb (j =? k)) (e_todo e)) true).
  set (u := upd (s_val s) (dst (e_req e) k) (s_val s (src (e_req e) k))).
  assert (I : forall x, In x (l1 ++ e' :: l2) -> exists y, In y (s_fly s) /\ e_id x = e_id y /\ e_req x = e_req y).
  { intros x Hx. apply in_app_iff in Hx. destruct Hx as [Hx|[<-|Hx]].
    - exists x. rewrite F, in_app_iff. auto.
    - exists e. auto.
    - exists x. rewrite F, in_app_iff. cbn. auto. }
  assert (O : forall x, In x (l1 ++ l2) -> In x (s_fly s) /\ e_id x <> e_id e).
  { intros x Hx. split; [rewrite F; apply in_app_iff in Hx; apply in_app_iff; cbn; tauto|].
    intros Q. pose proof (sm_ids _ _ M) as N. rewrite F, map_app in N. cbn in N. apply NoDup_remove in N.
    apply (proj2 N). rewrite <- map_app, <- Q. apply in_map; auto. }
  assert (D : forall x j, In x (l1 ++ l2) -> 0 <= j < r_size (e_req x) -> u (dst (e_req x) j) = s_val s (dst (e_req x) j)).
  { intros x j Hx Hj. apply upd_other. intros Q. destruct (O _ Hx) as (Hx' & Di).
    apply (sm_sep _ _ M x e Hx' J Di). exists (dst (e_req x) j). left. split; [exists j; auto|]. exists k. auto. }
  assert (P : map tag (l1 ++ e' :: l2) = pend s).
  { unfold pend. rewrite F, !map_app. reflexivity. }
  split; [|exact P]. constructor; cbn [s_val s_fly].
  - replace (map e_id (l1 ++ e' :: l2)) with (map e_id (s_fly s)); [apply (sm_ids _ _ M)|]. rewrite F, !map_app. reflexivity.
  - intros a b Ha Hb Di. destruct (I _ Ha) as (a' & A1 & A2 & A3). destruct (I _ Hb) as (b' & B1 & B2 & B3).
    rewrite A3, B3. apply (sm_sep _ _ M); auto. congruence.
  - intros l Hl. fold u. unfold u. rewrite upd_other.
    + apply (sm_out _ _ M). intros x Hx. rewrite F in Hx. apply in_app_iff in Hx. destruct Hx as [Hx|[<-|Hx]].
      * apply Hl. apply in_app_iff. auto.
      * apply (Hl e'). apply in_app_iff. cbn. auto.
      * apply Hl. apply in_app_iff. cbn. auto.
    + intros ->. apply (Hl e'); [apply in_app_iff; cbn; auto|]. exists k. auto.
  - intros x j Hx Hj T. fold u. apply in_app_iff in Hx. destruct Hx as [Hx|[<-|Hx]].
    + rewrite D; [|apply in_app_iff; auto|auto]. apply (sm_moved _ _ M); auto. rewrite F, in_app_iff. auto.
    + cbn [e' e_req e_todo] in *. destruct (Z.eqb_spec j k) as [->|Q].
      * unfold u. rewrite upd_same. apply (src_stable s w e k); auto.
      * unfold u. rewrite upd_other; [|intros Q'; apply dst_inj in Q'; auto]. apply (sm_moved _ _ M); auto.
        intros I2. apply T. apply filter_In. split; auto. destruct (Z.eqb_spec j k); auto.
    + rewrite D; [|apply in_app_iff; auto|auto]. apply (sm_moved _ _ M); auto. rewrite F, in_app_iff. cbn. auto.
  - intros x j Hx Hj T. fold u. apply in_app_iff in Hx. destruct Hx as [Hx|[<-|Hx]].
    + rewrite D; [|apply in_app_iff; auto|auto]. apply (sm_idle _ _ M); auto. rewrite F, in_app_iff. auto.
    + discriminate.
    + rewrite D; [|apply in_app_iff; auto|auto]. apply (sm_idle _ _ M); auto. rewrite F, in_app_iff. cbn. auto.
Qed.

Lemma in_pend : forall s e, In e (s_fly s) -> In (e_client e, e_id e, e_req e) (pend s).
Proof. intros s e H. unfold pend. apply (in_map tag _ _ H). Qed.

Lemma sim_label : forall s l s' w, sim s w -> step s (Some l) s' -> polite_label (pend s) l ->
  exists w', seq_step (pend s) w l w' /\ sim s' w' /\ pend s' = after (pend s) l.
Proof.
  intros s l s' w M H P.
  inversion H as [s0 c i r Fr|s0 c a v|s0 c a| |s0 l1 e l2 F T|s0 l1 e l2 F|s0 l1 e l2 F T]; subst; clear H.
  - exists w. cbn [seq_step after] in *. split; [auto|]. split; [|unfold pend; cbn [s_fly]; rewrite map_app; reflexivity].
    cbn [polite_label] in P. constructor; cbn [s_val s_fly].
    + rewrite map_app. cbn [map]. apply NoDup_snoc; [apply (sm_ids _ _ M)|].
      intros I. apply in_map_iff in I. destruct I as (x & Q & Hx). apply (Fr x); auto.
    + intros a b Ha Hb D. apply in_app_iff in Ha. apply in_app_iff in Hb. cbn in Ha, Hb.
      destruct Ha as [Ha|[<-|[]]], Hb as [Hb|[<-|[]]]; cbn [e_req e_id] in *.
      * apply (sm_sep _ _ M); auto.
      * intros C. apply (P (e_client a) (e_id a) (e_req a)); [apply in_pend; auto|]. apply conflict_sym; auto.
      * intros C. apply (P (e_client b) (e_id b) (e_req b)); [apply in_pend; auto|auto].
      * congruence.
    + intros l Hl. apply (sm_out _ _ M). intros e He. apply Hl. apply in_app_iff. auto.
    + intros e k He Hk T. apply in_app_iff in He. destruct He as [He|[<-|[]]].
      * apply (sm_moved _ _ M); auto.
      * exfalso. apply T. cbn. apply in_offsets. auto.
    + intros e k He Hk T. apply in_app_iff in He. destruct He as [He|[<-|[]]].
      * apply (sm_idle _ _ M); auto.
      * cbn [e_req] in *. apply (sm_out _ _ M). intros x Hx C. apply (P (e_client x) (e_id x) (e_req x)); [apply in_pend; auto|].
        exists (dst r k). left. split; [exists k; auto|apply changes_uses; auto].
  - exists (upd w (Mem a) v). cbn [seq_step after polite_label] in *. split; [split; [apply upd_same|intros; apply upd_other; auto]|].
    split; [|reflexivity].
    assert (U : forall e l, In e (s_fly s) -> uses (e_req e) l -> l <> Mem a).
    { intros e l He Hu ->. apply (P (e_client e) (e_id e) (e_req e)); auto. apply in_pend; auto. }
    constructor; cbn [s_val s_fly].
    + apply (sm_ids _ _ M).
    + apply (sm_sep _ _ M).
    + intros l Hl. destruct (loc_eqb_spec l (Mem a)) as [->|D]; [rewrite !upd_same; auto|]. rewrite !upd_other; auto.
      apply (sm_out _ _ M); auto.
    + intros e k He Hk T. rewrite (upd_other (s_val s)), (upd_other w); [apply (sm_moved _ _ M); auto| |];
        apply (U e); auto; exists k; auto.
    + intros e k He Hk T. rewrite (upd_other (s_val s)), (upd_other w); [apply (sm_idle _ _ M); auto| |]; apply (U e); auto; exists k; auto.
  - exists w. cbn [seq_step after polite_label] in *. csplit; auto.
    apply (sm_out _ _ M). intros e He. apply (P (e_client e) (e_id e) (e_req e)). apply in_pend; auto.
  - exists (fun m => if changes_dec (e_req e) m then s_val s m else w m).
    assert (J : In e (s_fly s)) by (rewrite F, in_app_iff; cbn; auto).
    assert (A : forall k, 0 <= k < r_size (e_req e) -> s_val s (dst (e_req e) k) = w (src (e_req e) k)).
    { intros k Hk. apply (sm_moved _ _ M); auto. rewrite T. auto. }
    cbn [seq_step after]. csplit.
    + exists (e_req e). csplit; [apply in_pend; auto| |].
      * intros k Hk. destruct (changes_dec (e_req e) (dst (e_req e) k)) as [C|C]; auto. exfalso. apply C. exists k; auto.
      * intros m C. destruct (changes_dec (e_req e) m); tauto.
    + apply (sim_remove s w l1 e l2); auto.
      * intros k Hk. destruct (changes_dec (e_req e) (dst (e_req e) k)) as [C|C]; auto. exfalso. apply C. exists k; auto.
      * intros m C. destruct (changes_dec (e_req e) m); tauto.
    + unfold pend. cbn [s_fly]. rewrite F, filter_id; auto. rewrite <- F. apply (sm_ids _ _ M).
  - exists (fun m => if changes_dec (e_req e) m then s_val s m else w m).
    assert (J : In e (s_fly s)) by (rewrite F, in_app_iff; cbn; auto).
    cbn [seq_step after]. csplit.
    + exists (e_req e). csplit; [apply in_pend; auto|].
      intros m C. destruct (changes_dec (e_req e) m); tauto.
    + apply (sim_remove s w l1 e l2); auto.
      * intros k Hk. destruct (changes_dec (e_req e) (dst (e_req e) k)) as [C|C]; auto. exfalso. apply C. exists k; auto.
      * intros m C. destruct (changes_dec (e_req e) m); tauto.
    + unfold pend. cbn [s_fly]. rewrite F, filter_id; auto. rewrite <- F. apply (sm_ids _ _ M).
  - exists w. assert (J : In e (s_fly s)) by (rewrite F, in_app_iff; cbn; auto).
    cbn [seq_step after]. csplit; auto.
    + apply (sim_remove s w l1 e l2); auto. intros k Hk. symmetry. apply (sm_idle _ _ M); auto.
    + unfold pend. cbn [s_fly]. rewrite F, filter_id; auto. rewrite <- F. apply (sm_ids _ _ M).
Qed.

Lemma sim_run : forall s tr s', run s tr s' -> forall w, sim s w ->
  (forall t1 l t2, tr = t1 ++ l :: t2 -> polite_label (pending (pend s) t1) l) ->
  exists w', seq_run (pend s) w tr w' /\ sim s' w'.
Proof.
  intros s tr s' R. induction R as [s|s1 s2 tr s3 St R IH|s1 l s2 tr s3 St R IH]; intros w M P.
  - exists w. split; [constructor; auto|auto].
  - destruct (sim_silent _ _ _ M St) as (M' & E). destruct (IH w M') as (w' & Q & M2).
    + intros t1 l t2 ->. rewrite E. eapply P; eauto.
    + exists w'. rewrite E in Q. auto.
  - destruct (sim_label _ _ _ _ M St (P [] l tr eq_refl)) as (w1 & Q1 & M1 & E).
    destruct (IH w1 M1) as (w' & Q & M2).
    + intros t1 k t2 ->. rewrite E. apply (P (l :: t1) k t2). reflexivity.
    + exists w'. split; auto. econstructor; [exact Q1|]. rewrite <- E. exact Q.
Qed.

Lemma sim_init : forall w, sim (MkS w []) w.
Proof.
  intros w. constructor; cbn [s_val s_fly]; [constructor|intros e e' H; destruct H|auto|intros e k H; destruct H|intros e k H; destruct H].
Qed.

(** * Parts of a trace *)

Definition mine (c : nat) (x : posted) : bool := Nat.eqb (fst (fst x)) c.

Lemma filter_comm : forall A (f g : A -> bool) l, filter f (filter g l) = filter g (filter f l).
Proof.
  intros A f g. induction l as [|a l IH]; cbn; auto. destruct (g a) eqn:G, (f a) eqn:F; cbn; rewrite ?F, ?G, ?IH; auto.
Qed.

Lemma after_part : forall c l p,
  filter (mine c) (after p l) = if Nat.eqb (client_of l) c then after (filter (mine c) p) l else filter (mine c) p.
Proof.
  intros c l p.
  assert (X : forall d i, filter (mine c) (filter (fun x => negb (is_posted d i x)) p) =
    if Nat.eqb d c then filter (fun x => negb (is_posted d i x)) (filter (mine c) p) else filter (mine c) p).
  { intros d i. rewrite filter_comm. destruct (Nat.eqb_spec d c) as [Q|D]; auto.
    induction p as [|x p IH]; cbn; auto. destruct (mine c x) eqn:M; cbn; auto. unfold mine in M. apply Nat.eqb_eq in M.
    unfold is_posted. rewrite M. destruct (Nat.eqb_spec c d); [congruence|]. cbn. f_equal. exact IH. }
  destruct l; cbn [after client_of]; auto; try (destruct (Nat.eqb c0 c); reflexivity).
  rewrite filter_app. cbn [filter]. unfold mine at 2. cbn [fst]. destruct (Nat.eqb c0 c); auto. rewrite app_nil_r. auto.
Qed.

Lemma pending_part : forall c tr p, pending (filter (mine c) p) (part c tr) = filter (mine c) (pending p tr).
Proof.
  intros c. induction tr as [|l tr IH]; intros p; [reflexivity|]. unfold pending in *. cbn [part filter fold_left].
  rewrite <- IH, after_part. fold (part c tr). destruct (Nat.eqb (client_of l) c); reflexivity.
Qed.

Definition owned (own : nat -> loc -> Prop) (p : list posted) : Prop :=
  forall c i r m, In (c, i, r) p -> uses r m -> own c m.

Lemma after_owned : forall own p l, owned own p -> keeps_to own l -> owned own (after p l).
Proof.
  intros own p l O K c i r m H U.
  destruct l; cbn [after keeps_to] in *; eauto; try (apply filter_In in H; destruct H as (H & _); eauto).
  apply in_app_iff in H. destruct H as [H|[H|[]]]; eauto. inversion H; subst. auto.
Qed.

Lemma pending_owned : forall own tr p, owned own p -> Forall (keeps_to own) tr -> owned own (pending p tr).
Proof.
  intros own. induction tr as [|l tr IH]; intros p O F; auto. inversion F; subst. apply IH; auto. apply after_owned; auto.
Qed.

Lemma part_app : forall c a b, part c (a ++ b) = part c a ++ part c b.
Proof. intros. apply filter_app. Qed.

Lemma polite_parts : forall (own : nat -> loc -> Prop) tr, (forall c d m, own c m -> own d m -> c = d) -> Forall (keeps_to own) tr ->
  (forall c, polite (part c tr)) -> polite tr.
Proof.
  intros own tr D F P t1 l t2 E. set (c := client_of l).
  assert (Q : polite_label (filter (mine c) (pending [] t1)) l).
  { rewrite <- pending_part. apply (P c (part c t1) l (part c t2)). rewrite E, part_app. cbn [part filter].
    fold c. rewrite Nat.eqb_refl. auto. }
  assert (O : owned own (pending [] t1)).
  { apply pending_owned; [intros ? ? ? ? []|]. rewrite E in F. apply Forall_app in F. apply F. }
  assert (K : keeps_to own l). { rewrite E in F. apply Forall_app in F. destruct F as (_ & F). inversion F; auto. }
  assert (X : forall d i q, In (d, i, q) (pending [] t1) -> d = c \/ d <> c) by (intros d i q _; destruct (Nat.eq_dec d c); auto).
  assert (Y : forall d i q, In (d, i, q) (pending [] t1) -> d = c -> In (d, i, q) (filter (mine c) (pending [] t1))).
  { intros d i q H ->. apply filter_In. split; auto. unfold mine. cbn. apply Nat.eqb_refl. }
  destruct l; cbn [polite_label keeps_to client_of] in *; auto; intros d i' q H.
  - destruct (X _ _ _ H) as [Z|Z]; [eapply Q; eauto|]. intros (m & C). apply Z. apply (D d c m).
    + eapply O; eauto. destruct C as [(_ & C)|(_ & C)]; auto. apply changes_uses; auto.
    + apply K. destruct C as [(C & _)|(C & _)]; auto. apply changes_uses; auto.
  - destruct (X _ _ _ H) as [Z|Z]; [eapply Q; eauto|]. intros C. apply Z. apply (D d c (Mem a)); auto. eapply O; eauto.
  - destruct (X _ _ _ H) as [Z|Z]; [eapply Q; eauto|]. intros C. apply Z. apply (D d c (Mem a)); auto. eapply O; eauto.
    apply changes_uses; auto.
Qed.

Lemma seq_part : forall (own : nat -> loc -> Prop), (forall c d m, own c m -> own d m -> c = d) ->
  forall p w tr w', seq_run p w tr w' -> Forall (keeps_to own) tr -> owned own p ->
  forall c v, (forall m, own c m -> v m = w m) ->
  exists v', seq_run (filter (mine c) p) v (part c tr) v' /\ forall m, own c m -> v' m = w' m.
Proof.
  intros own D p w tr w' R. induction R as [p w w' E|p w l w1 tr w2 St R IH]; intros F O c v A.
  - exists v. split; [constructor; auto|]. intros m Hm. rewrite E. auto.
  - inversion F as [|? ? K F']; subst. cbn [part filter]. fold (part c tr).
    assert (O' : owned own (after p l)) by (apply after_owned; auto).
    destruct (Nat.eqb_spec (client_of l) c) as [Q|N].
    + assert (S1 : exists v1, seq_step (filter (mine c) p) v l v1 /\ forall m, own c m -> v1 m = w1 m).
      { assert (Y : forall i q, In (c, i, q) p -> In (c, i, q) (filter (mine c) p)).
        { intros i q H. apply filter_In. split; auto. unfold mine. cbn. apply Nat.eqb_refl. }
        destruct l; cbn [seq_step client_of keeps_to] in *; subst c0.
        - exists v. split; auto. intros m Hm. rewrite St. auto.
        - destruct St as (S1 & S2). exists (upd v (Mem a) v0). split; [split; [apply upd_same|intros; apply upd_other; auto]|].
          intros m Hm. destruct (loc_eqb_spec m (Mem a)) as [->|Z]; [rewrite upd_same; auto|]. rewrite upd_other, S2; auto.
        - destruct St as (S1 & S2). exists v. split; [split; auto; rewrite A; auto|]. intros m Hm. rewrite S2. auto.
        - destruct St as (r & I & S1 & S2). exists (fun m => if changes_dec r m then w1 m else v m). split.
          + exists r. csplit; auto.
            * intros k Hk. destruct (changes_dec r (dst r k)) as [C|C]; [|exfalso; apply C; exists k; auto].
              rewrite S1, A; auto. eapply O; eauto. exists k; auto.
            * intros m C. destruct (changes_dec r m); tauto.
          + intros m Hm. destruct (changes_dec r m) as [C|C]; auto. rewrite S2, A; auto.
        - destruct St as (r & I & S2). exists (fun m => if changes_dec r m then w1 m else v m). split.
          + exists r. csplit; auto. intros m C. destruct (changes_dec r m); tauto.
          + intros m Hm. destruct (changes_dec r m) as [C|C]; auto. rewrite S2, A; auto.
        - exists v. split; auto. intros m Hm. rewrite St. auto. }
      destruct S1 as (v1 & S1 & A1). destruct (IH F' O' c v1 A1) as (v' & R' & A').
      exists v'. split; auto. rewrite after_part in R'. destruct (Nat.eqb_spec (client_of l) c); [|congruence].
      econstructor; eauto.
    + assert (A1 : forall m, own c m -> v m = w1 m).
      { intros m Hm. rewrite A; auto. symmetry.
        assert (U : forall i r, In (client_of l, i, r) p -> ~ changes r m).
        { intros i r I C. apply N. apply (D _ _ m); auto. eapply O; eauto. apply changes_uses; auto. }
        destruct l; cbn [seq_step client_of keeps_to] in *; auto.
        - apply St. intros ->. apply N. apply (D _ _ (Mem a)); auto.
        - apply St.
        - destruct St as (r & I & _ & S2). apply S2. eapply U; eauto.
        - destruct St as (r & I & S2). apply S2. eapply U; eauto. }
      destruct (IH F' O' c v A1) as (v' & R' & A'). exists v'. split; auto.
      rewrite after_part in R'. destruct (Nat.eqb_spec (client_of l) c); [congruence|]. auto.
Qed.
