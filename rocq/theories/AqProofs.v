(** Refinement proofs for the addressable queues. *)
From Coq Require Import ZArith List Bool Lia Sorted.
From Verif Require Import AqModel AqSpec.
Import ListNotations.
Local Open Scope Z_scope.

(** * std::map *)

Lemma map_find_erase : forall {V} k k' (m : list (Z * V)), NoDup (map fst m) ->
  map_find k (map_erase k' m) = if k =? k' then None else map_find k m.
Proof.
  induction m as [|[a v] m IH]; intros N; simpl.
  - destruct (k =? k'); auto.
  - inversion N; subst. destruct (Z.eqb_spec k' a).
    + subst. destruct (Z.eqb_spec k a); auto. subst.
      destruct (map_find a m) eqn:E; auto. exfalso. apply H1.
      clear - E. induction m as [|[b w] m IH]; simpl in *; [discriminate|].
      destruct (Z.eqb_spec a b); [left; auto|right; auto].
    + simpl. destruct (Z.eqb_spec k a).
      * subst. destruct (Z.eqb_spec a k'); [congruence|auto].
      * auto.
Qed.

Lemma map_erase_keys : forall {V} k (m : list (Z * V)), incl (map fst (map_erase k m)) (map fst m).
Proof.
  induction m as [|[a v] m IH]; simpl; intros x Hx; auto.
  destruct (k =? a); simpl in *; intuition auto.
Qed.

Lemma map_erase_nodup : forall {V} k (m : list (Z * V)), NoDup (map fst m) -> NoDup (map fst (map_erase k m)).
Proof.
  induction m as [|[a v] m IH]; simpl; intros N; auto. inversion N; subst.
  destruct (k =? a); simpl; auto. constructor; auto. intros K. apply H1. eapply map_erase_keys; eauto.
Qed.

Lemma map_set_keys : forall {V} k v (m : list (Z * V)), map fst (map_set k v m) = map fst m.
Proof.
  induction m as [|[a w] m IH]; simpl; auto. destruct (Z.eqb_spec k a); simpl; congruence.
Qed.

Lemma map_find_set : forall {V} k k' v (m : list (Z * V)), map_find k' m <> None ->
  map_find k (map_set k' v m) = if k =? k' then Some v else map_find k m.
Proof.
  induction m as [|[a w] m IH]; simpl; intros N; [congruence|].
  destruct (Z.eqb_spec k' a).
  - subst. simpl. destruct (k =? a); auto.
  - simpl. rewrite IH by auto. destruct (Z.eqb_spec k a); auto. subst.
    destruct (Z.eqb_spec a k'); [congruence|auto].
Qed.

Lemma map_find_none_notin : forall {V} k (m : list (Z * V)), map_find k m = None -> ~ In k (map fst m).
Proof.
  induction m as [|[a w] m IH]; simpl; intros E; auto.
  destruct (Z.eqb_spec k a); [discriminate|]. intros [K|K]; [congruence|]. apply IH; auto.
Qed.

(** * FIFO queue *)

Record fifo_rel (q : fifo) (l : list Z) : Prop := mk_fifo_rel {
  fr_vals : map snd (vals q) = l;
  fr_nodup : NoDup l;
  fr_ids : NoDup (map fst (vals q));
  fr_next : forall i e, In (i, e) (vals q) -> (i < next q)%nat;
  fr_keys : NoDup (map fst (meta q));
  fr_meta : forall e i, map_find e (meta q) = Some i <-> In (i, e) (vals q)
}.

Lemma node_erase_in : forall i e l, NoDup (map fst l) -> In (i, e) l ->
  exists l1 l2, l = l1 ++ (i, e) :: l2 /\ node_erase i l = Some (l1 ++ l2).
Proof.
  induction l as [|[j x] l IH]; intros N Hin; [destruct Hin|].
  simpl in N. inversion N; subst. simpl. destruct (Nat.eqb_spec i j).
  - subst j. exists [], l. destruct Hin as [E|Hin]; [inversion E; subst; auto|].
    exfalso. apply H1. apply in_map_iff. exists (i, e). auto.
  - destruct Hin as [E|Hin]; [inversion E; congruence|].
    destruct (IH H2 Hin) as (l1 & l2 & -> & E). rewrite E. exists ((j, x) :: l1), l2. auto.
Qed.

Lemma without_app : forall e a b, without e (a ++ b) = without e a ++ without e b.
Proof. intros. unfold without. apply filter_app. Qed.

Lemma without_notin : forall e l, ~ In e l -> without e l = l.
Proof.
  induction l as [|x l IH]; intros N; simpl; auto. simpl in N.
  destruct (Z.eqb_spec x e); simpl; [exfalso; auto|]. f_equal. auto.
Qed.

Lemma without_remove : forall e a b, NoDup (a ++ e :: b) -> without e (a ++ e :: b) = a ++ b.
Proof.
  intros e a b N. pose proof (NoDup_remove_2 _ _ _ N) as K.
  rewrite without_app. simpl. rewrite Z.eqb_refl. simpl.
  rewrite <- without_app. apply without_notin. auto.
Qed.

Lemma mem_in : forall e l, mem e l = true <-> In e l.
Proof.
  intros. unfold mem. rewrite existsb_exists. split.
  - intros (x & Hx & E). apply Z.eqb_eq in E. subst; auto.
  - intros H. exists e. rewrite Z.eqb_refl. auto.
Qed.

Lemma mem_notin : forall e l, ~ In e l -> mem e l = false.
Proof. intros e l N. destruct (mem e l) eqn:E; auto. apply mem_in in E. tauto. Qed.

Lemma in_vals_in : forall q l e, fifo_rel q l -> (In e l <-> exists i, In (i, e) (vals q)).
Proof.
  intros q l e R. rewrite <- (fr_vals _ _ R), in_map_iff. split.
  - intros ([i x] & E & H). simpl in E. subst. eauto.
  - intros (i & H). exists (i, e). auto.
Qed.

Lemma unique_id : forall q l i j e, fifo_rel q l -> In (i, e) (vals q) -> In (j, e) (vals q) -> i = j.
Proof.
  intros q l i j e R Hi Hj. apply (fr_meta _ _ R) in Hi. apply (fr_meta _ _ R) in Hj. congruence.
Qed.

Lemma NoDup_snoc : forall {A} (l : list A) x, NoDup l -> ~ In x l -> NoDup (l ++ [x]).
Proof.
  induction l as [|y l IH]; intros x N H; simpl.
  - constructor; auto; constructor.
  - inversion N; subst. constructor.
    + rewrite in_app_iff. simpl in *. intuition.
    + apply IH; auto. simpl in H. auto.
Qed.

Lemma fifo_insert_refines : forall q l e, fifo_rel q l ->
  exists q' b, fifo_insert q e = Some (q', b) /\ fifo_rel q' (without e l ++ [e]) /\ b = negb (mem e l).
Proof.
  intros q l e R. unfold fifo_insert.
  assert (Hfresh : ~ In (next q) (map fst (vals q))).
  { rewrite in_map_iff. intros ([i x] & E & H). simpl in E. subst. apply (fr_next _ _ R) in H. lia. }
  destruct (map_find e (meta q)) as [old|] eqn:F.
  - pose proof (proj1 (fr_meta _ _ R e old) F) as Hin.
    assert (Hl : In e l) by (apply (in_vals_in _ _ _ R); eauto).
    destruct (node_erase_in old e (vals q) (fr_ids _ _ R) Hin) as (l1 & l2 & Ev & Ee).
    assert (Ids : NoDup (map fst (vals q ++ [(next q, e)]))).
    { rewrite map_app. simpl. apply NoDup_snoc; auto. apply (fr_ids _ _ R). }
    destruct (node_erase_in old e (vals q ++ [(next q, e)]) Ids) as (m1 & m2 & Em & En).
    { apply in_app_iff; auto. }
    rewrite En. do 2 eexists. split; [reflexivity|].
    assert (Dec : m1 ++ m2 = (l1 ++ l2) ++ [(next q, e)]).
    { clear - Ee En. revert l1 l2 Ee. revert m1 m2 En. 
      assert (G : forall v w, node_erase old v = Some w -> node_erase old (v ++ [(next q, e)]) = Some (w ++ [(next q, e)])).
      { induction v as [|[j x] v IH]; simpl; intros w E; [discriminate|].
        destruct (Nat.eqb old j); [inversion E; subst; auto|].
        destruct (node_erase old v) eqn:K; [|discriminate]. inversion E; subst.
        rewrite (IH _ eq_refl). auto. }
      intros m1 m2 En l1 l2 Ee. apply G in Ee. congruence. }
    assert (Nl : NoDup (map snd l1 ++ e :: map snd l2)).
    { pose proof (fr_nodup _ _ R) as N. rewrite <- (fr_vals _ _ R), Ev, map_app in N. exact N. }
    assert (W : without e l = map snd l1 ++ map snd l2).
    { rewrite <- (fr_vals _ _ R), Ev, map_app. simpl. apply without_remove. exact Nl. }
    split; [|apply mem_in in Hl; rewrite Hl; auto].
    constructor; simpl.
    + rewrite Dec, W, !map_app. reflexivity.
    + rewrite W. apply NoDup_snoc; [apply NoDup_remove_1 in Nl; auto|apply NoDup_remove_2 in Nl; auto].
    + rewrite Dec, map_app. simpl. pose proof (fr_ids _ _ R) as N. rewrite Ev, map_app in N. simpl in N.
      rewrite Ev, map_app in Hfresh. simpl in Hfresh.
      apply NoDup_snoc; rewrite map_app.
      * apply NoDup_remove_1 in N. auto.
      * rewrite in_app_iff in *. simpl in *. tauto.
    + rewrite Dec. intros i x. rewrite in_app_iff. simpl. intros [H|[E|[]]]; [|inversion E; subst; lia].
      assert (In (i, x) (vals q)) by (rewrite Ev; rewrite in_app_iff in *; simpl; tauto).
      apply (fr_next _ _ R) in H0. lia.
    + rewrite map_set_keys. apply (fr_keys _ _ R).
    + intros x i. rewrite map_find_set by congruence. rewrite Dec.
      destruct (Z.eqb_spec x e).
      * subst x. split.
        -- intros E. inversion E; subst. apply in_app_iff. simpl. auto.
        -- rewrite in_app_iff. simpl. intros [H|[E|[]]]; [|inversion E; auto].
           exfalso. apply NoDup_remove_2 in Nl. apply Nl. rewrite <- map_app. apply in_map_iff.
           exists (i, e). auto.
      * rewrite (fr_meta _ _ R), Ev. rewrite !in_app_iff. simpl. split.
        -- intros [H|[E|H]]; auto. inversion E; congruence.
        -- intros [[H|H]|[E|[]]]; auto. inversion E; congruence.
  - assert (Hl : ~ In e l).
    { rewrite (in_vals_in _ _ _ R). intros (i & H). apply (fr_meta _ _ R) in H. congruence. }
    do 2 eexists. split; [reflexivity|]. split; [|rewrite mem_notin; auto].
    rewrite without_notin by auto. constructor; simpl.
    + rewrite map_app, (fr_vals _ _ R). reflexivity.
    + apply NoDup_snoc; auto. apply (fr_nodup _ _ R).
    + rewrite map_app. simpl. apply NoDup_snoc; auto. apply (fr_ids _ _ R).
    + intros i x. rewrite in_app_iff. simpl. intros [H|[E|[]]]; [|inversion E; subst; lia].
      apply (fr_next _ _ R) in H. lia.
    + constructor; [apply map_find_none_notin; auto|apply (fr_keys _ _ R)].
    + intros x i. rewrite in_app_iff. simpl. destruct (Z.eqb_spec x e).
      * subst. split.
        -- intros E. inversion E; subst. auto.
        -- intros [H|[E|[]]]; [|inversion E; auto].
           exfalso. apply Hl. apply (in_vals_in _ _ _ R). eauto.
      * rewrite (fr_meta _ _ R). split; auto. intros [H|[E|[]]]; auto. inversion E; congruence.
Qed.

Lemma fifo_remove_rel : forall q l l1 l2 i e, fifo_rel q l -> vals q = l1 ++ (i, e) :: l2 ->
  fifo_rel (mk_fifo (l1 ++ l2) (map_erase e (meta q)) (next q)) (without e l) /\
  without e l = map snd l1 ++ map snd l2.
Proof.
  intros q l l1 l2 i e R Ev.
  assert (Nl : NoDup (map snd l1 ++ e :: map snd l2)).
  { pose proof (fr_nodup _ _ R) as N. rewrite <- (fr_vals _ _ R), Ev, map_app in N. exact N. }
  assert (W : without e l = map snd l1 ++ map snd l2).
  { rewrite <- (fr_vals _ _ R), Ev, map_app. simpl. apply without_remove. exact Nl. }
  split; auto. rewrite W. constructor; simpl.
  - apply map_app.
  - apply NoDup_remove_1 in Nl. auto.
  - pose proof (fr_ids _ _ R) as N. rewrite Ev, map_app in N. simpl in N. rewrite map_app.
    apply NoDup_remove_1 in N. auto.
  - intros j x H. apply (fr_next _ _ R j x). rewrite Ev. rewrite in_app_iff in *. simpl. tauto.
  - apply map_erase_nodup. apply (fr_keys _ _ R).
  - intros x j. rewrite map_find_erase by apply (fr_keys _ _ R). destruct (Z.eqb_spec x e).
    + subst. split; [discriminate|]. intros H. exfalso. apply NoDup_remove_2 in Nl. apply Nl.
      rewrite <- map_app. apply in_map_iff. exists (j, e). auto.
    + rewrite (fr_meta _ _ R), Ev, !in_app_iff. simpl. split; [|tauto].
      intros [H|[E|H]]; auto. inversion E; congruence.
Qed.

Lemma fifo_do_refines : forall q l o, fifo_rel q l ->
  match fifo_spec l o with
  | Some (l', x) => exists q', fifo_do q o = Some (q', x) /\ fifo_rel q' l'
  | None => fifo_do q o = None
  end.
Proof.
  intros q l o R. destruct o as [e|e|]; simpl.
  - destruct (fifo_insert_refines q l e R) as (q' & b & E & R' & ->). rewrite E.
    exists q'. split; auto. f_equal. f_equal. destruct (mem e l); auto.
  - unfold fifo_erase. destruct (map_find e (meta q)) as [i|] eqn:F.
    + pose proof (proj1 (fr_meta _ _ R e i) F) as Hin.
      destruct (node_erase_in i e (vals q) (fr_ids _ _ R) Hin) as (l1 & l2 & Ev & Ee). rewrite Ee.
      assert (Hl : In e l) by (apply (in_vals_in _ _ _ R); eauto). apply mem_in in Hl. rewrite Hl.
      eexists. split; [reflexivity|]. apply (fifo_remove_rel _ _ _ _ _ _ R Ev).
    + assert (Hl : ~ In e l).
      { rewrite (in_vals_in _ _ _ R). intros (i & H). apply (fr_meta _ _ R) in H. congruence. }
      rewrite mem_notin, without_notin by auto. exists q. auto.
  - unfold fifo_pop. pose proof (fr_vals _ _ R) as Ev. destruct (vals q) as [|[i e] r] eqn:V.
    + simpl in Ev. subst l. auto.
    + simpl in Ev. subst l. eexists. split; [reflexivity|].
      destruct (fifo_remove_rel q _ [] r i e R) as [K W]; [rewrite V; auto|].
      simpl in W, K. rewrite W in K. exact K.
Qed.

Lemma fifo_run_refines : forall ops q l, fifo_rel q l ->
  match fifo_spec_run l ops with
  | Some (l', xs) => exists q', fifo_run q ops = Some (q', xs) /\ fifo_rel q' l'
  | None => fifo_run q ops = None
  end.
Proof.
  induction ops as [|o ops IH]; intros q l R; simpl; [eauto|].
  pose proof (fifo_do_refines q l o R) as D. destruct (fifo_spec l o) as [[l' x]|].
  - destruct D as (q' & -> & R'). specialize (IH q' l' R').
    destruct (fifo_spec_run l' ops) as [[l'' xs]|].
    + destruct IH as (q'' & -> & R''). eauto.
    + rewrite IH. auto.
  - rewrite D. auto.
Qed.

Lemma fifo_new_rel : fifo_rel fifo_new [].
Proof. constructor; simpl; try constructor; try discriminate; tauto. Qed.
