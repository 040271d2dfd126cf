(** Refinement proof for the addressable priority queue. *)
From Coq Require Import ZArith List Bool Lia Sorted.
From Verif Require Import AqModel AqSpec AqProofs.
Import ListNotations.
Local Open Scope Z_scope.

Section PQ.
Variable P : Type.
Variable c : P -> P -> bool.
Hypothesis SW : strict_weak c.

Notation plt := (fun a b => pair_lt c a b = true).
Notation eqv a b := (c a b = false /\ c b a = false).

Lemma c_asym : forall x y, c x y = true -> c y x = false.
Proof.
  intros x y H. destruct (c y x) eqn:E; auto.
  pose proof (sw_trans _ SW _ _ _ H E). rewrite (sw_irrefl _ SW) in H0. discriminate.
Qed.

Lemma c_eqv_r : forall x y z, c x y = true -> eqv y z -> c x z = true.
Proof.
  intros x y z H [E1 E2]. destruct (c x z) eqn:E; auto.
  destruct (c z x) eqn:F.
  - pose proof (sw_trans _ SW _ _ _ F H). congruence.
  - destruct (sw_equiv _ SW x z y E F E2 E1). congruence.
Qed.

Lemma c_eqv_l : forall x y z, eqv x y -> c y z = true -> c x z = true.
Proof.
  intros x y z [E1 E2] H. destruct (c x z) eqn:E; auto.
  destruct (c z x) eqn:F.
  - pose proof (sw_trans _ SW _ _ _ H F). congruence.
  - destruct (sw_equiv _ SW y x z E2 E1 E F). congruence.
Qed.

Lemma eqv_trans : forall x y z, eqv x y -> eqv y z -> eqv x z.
Proof. intros x y z [A B] [C D]. exact (sw_equiv _ SW x y z A B C D). Qed.

Lemma plt_iff : forall a b, pair_lt c a b = true <->
  c (fst a) (fst b) = true \/ (eqv (fst a) (fst b) /\ snd a < snd b).
Proof.
  intros a b. unfold pair_lt. rewrite orb_true_iff, andb_true_iff, negb_true_iff, Z.ltb_lt.
  destruct (c (fst a) (fst b)) eqn:E; intuition.
Qed.

Lemma plt_trans : forall a b d, pair_lt c a b = true -> pair_lt c b d = true -> pair_lt c a d = true.
Proof.
  intros a b d. rewrite !plt_iff. intros [H1|[E1 L1]] [H2|[E2 L2]].
  - left. eapply sw_trans; eauto.
  - left. eapply c_eqv_r; eauto.
  - left. eapply c_eqv_l; eauto.
  - right. split; [eapply eqv_trans; eauto|lia].
Qed.

Lemma plt_irrefl : forall a, pair_lt c a a = false.
Proof.
  intros a. destruct (pair_lt c a a) eqn:E; auto. apply plt_iff in E.
  rewrite (sw_irrefl _ SW) in E. destruct E as [E|[_ E]]; [discriminate|lia].
Qed.

Lemma plt_asym : forall a b, pair_lt c a b = true -> pair_lt c b a = false.
Proof.
  intros a b H. destruct (pair_lt c b a) eqn:E; auto.
  pose proof (plt_trans _ _ _ H E). rewrite plt_irrefl in H0. discriminate.
Qed.

Lemma plt_neither : forall a b, pair_lt c a b = false -> pair_lt c b a = false ->
  eqv (fst a) (fst b) /\ snd a = snd b.
Proof.
  intros a b H1 H2.
  assert (N1 : ~ (c (fst a) (fst b) = true \/ (eqv (fst a) (fst b) /\ snd a < snd b)))
    by (rewrite <- plt_iff; congruence).
  assert (N2 : ~ (c (fst b) (fst a) = true \/ (eqv (fst b) (fst a) /\ snd b < snd a)))
    by (rewrite <- plt_iff; congruence).
  destruct (c (fst a) (fst b)) eqn:E1; [tauto|]. destruct (c (fst b) (fst a)) eqn:E2; [tauto|].
  split; auto. destruct (Z.lt_trichotomy (snd a) (snd b)) as [L|[L|L]]; auto; exfalso.
  - apply N1. auto.
  - apply N2. auto.
Qed.

Notation ssorted := (StronglySorted plt).

Lemma set_insert_spec : forall x l l' it b, ssorted l -> set_insert c x l = (l', it, b) ->
  ssorted l' /\ In it l' /\
  (b = true -> it = x /\ (forall y, In y l' <-> y = x \/ In y l) /\
               (forall y, In y l -> ~ (eqv (fst x) (fst y) /\ snd x = snd y))) /\
  (b = false -> l' = l /\ eqv (fst it) (fst x) /\ snd it = snd x).
Proof.
  induction l as [|y l IH]; intros l' it b Hs E; simpl in E.
  - inversion E; subst. split; [repeat constructor|]. split; [simpl; auto|]. split; [|discriminate].
    intros _. split; auto. split; [intros z; simpl; intuition|intros z []].
  - inversion Hs as [|? ? Hs' Hall]; subst. rewrite Forall_forall in Hall.
    destruct (pair_lt c x y) eqn:L1.
    + inversion E; subst. split.
      { constructor; auto. constructor; auto. apply Forall_forall. intros z Hz.
        apply (plt_trans _ y); auto. }
      split; [simpl; auto|]. split; [|discriminate]. intros _. split; auto. split.
      * intros z. simpl. intuition.
      * intros z [<-|Hz] [[K1 K2] K3].
        -- apply plt_iff in L1. rewrite K1, K3 in L1. destruct L1 as [L1|[_ L1]]; [discriminate|lia].
        -- specialize (Hall z Hz). pose proof (plt_trans _ _ _ L1 Hall) as T.
           apply plt_iff in T. rewrite K1, K3 in T. destruct T as [T|[_ T]]; [discriminate|lia].
    + destruct (pair_lt c y x) eqn:L2.
      * destruct (set_insert c x l) as [[r' it'] b'] eqn:R. inversion E; subst.
        destruct (IH _ _ _ Hs' eq_refl) as (S1 & S2 & S3 & S4). destruct b.
        -- destruct (S3 eq_refl) as (-> & S5 & S6). split.
           { constructor; auto. apply Forall_forall. intros z Hz. apply S5 in Hz.
             destruct Hz as [->|Hz]; auto. }
           split; [simpl; auto|]. split; [|discriminate]. intros _. split; auto. split.
           ++ intros z. simpl. rewrite S5. intuition.
           ++ intros z [<-|Hz]; [|apply S6; auto]. intros [[K1 K2] K3].
              apply plt_iff in L2. rewrite K2, K3 in L2. destruct L2 as [L2|[_ L2]]; [discriminate|lia].
        -- destruct (S4 eq_refl) as (-> & S5). split; auto. split; [simpl; auto|].
           split; [discriminate|]. auto.
      * inversion E; subst. split; auto. split; [simpl; auto|]. split; [discriminate|].
        intros _. destruct (plt_neither _ _ L1 L2) as [[K1 K2] K3]. auto.
Qed.

Lemma set_erase_spec : forall x l, ssorted l -> In x l ->
  exists l', set_erase c x l = Some l' /\ ssorted l' /\ (forall y, In y l' <-> In y l /\ y <> x) .
Proof.
  induction l as [|y l IH]; intros Hs Hin; [destruct Hin|].
  inversion Hs as [|? ? Hs' Hall]; subst. rewrite Forall_forall in Hall. simpl.
  destruct Hin as [->|Hin].
  - rewrite plt_irrefl. simpl. exists l. split; auto. split; auto. intros y. split.
    + intros Hy. split; auto. intros ->. specialize (Hall _ Hy). rewrite plt_irrefl in Hall. discriminate.
    + intros [[->|Hy] N]; [congruence|auto].
  - specialize (Hall _ Hin) as L. rewrite L. simpl. rewrite andb_false_r.
    destruct (IH Hs' Hin) as (l' & E & S1 & S2). rewrite E. exists (y :: l'). split; auto. split.
    + constructor; auto. apply Forall_forall. intros z Hz. apply S2 in Hz. apply Hall. tauto.
    + intros z. simpl. rewrite S2. split.
      * intros [->|[A B]]; [|auto]. split; auto. intros ->. rewrite plt_irrefl in L. discriminate.
      * intros [[->|A] B]; auto.
Qed.

Record pq_rel (q : pqueue P) (m : prios P) : Prop := mk_pq_rel {
  pr_sorted : ssorted (pvals q);
  pr_keys : NoDup (map fst (pmeta q));
  pr_meta : forall e x, map_find e (pmeta q) = Some x <-> In x (pvals q) /\ snd x = e;
  pr_prio : forall e, match map_find e (pmeta q), m e with
                      | None, None => True
                      | Some x, Some p => eqv (fst x) p
                      | _, _ => False
                      end
}.

Lemma pq_new_rel : pq_rel (pq_new P) no_prios.
Proof.
  constructor; simpl; try constructor; try discriminate; try tauto.
Qed.

Lemma pq_is_some : forall q m e, pq_rel q m -> is_some (map_find e (pmeta q)) = is_some (m e).
Proof.
  intros q m e R. pose proof (pr_prio _ _ R e). destruct (map_find e (pmeta q)), (m e); tauto.
Qed.

Lemma pq_remove_rel : forall q m x l', pq_rel q m -> In x (pvals q) -> ssorted l' ->
  (forall y, In y l' <-> In y (pvals q) /\ y <> x) ->
  pq_rel (mk_pqueue l' (map_erase (snd x) (pmeta q))) (set_prio m (snd x) None).
Proof.
  intros q m x l' R Hx Hs Hl. pose proof (pr_keys _ _ R) as K.
  assert (Fx : map_find (snd x) (pmeta q) = Some x) by (apply (pr_meta _ _ R); auto).
  constructor; simpl; auto.
  - apply map_erase_nodup; auto.
  - intros e y. rewrite map_find_erase by auto. rewrite Hl. destruct (Z.eqb_spec e (snd x)).
    + split; [discriminate|]. intros [[A B] C]. exfalso. apply B.
      assert (map_find e (pmeta q) = Some y) by (apply (pr_meta _ _ R); auto). subst e. congruence.
    + rewrite (pr_meta _ _ R). split.
      * intros [A B]. split; auto. split; auto. intros ->. congruence.
      * tauto.
  - intros e. rewrite map_find_erase by auto. unfold set_prio. destruct (e =? snd x); auto.
    apply (pr_prio _ _ R).
Qed.

Lemma pq_do_refines : forall q m o, pq_rel q m -> allowed q o ->
  exists q' x m', pq_do c q o = Some (q', x) /\ pq_spec c m o m' x /\ pq_rel q' m'.
Proof.
  intros q m o R A. destruct o as [e p|e|]; simpl.
  - unfold pq_insert. destruct (set_insert c (p, e) (pvals q)) as [[vals1 it] fresh] eqn:E.
    destruct (set_insert_spec _ _ _ _ _ (pr_sorted _ _ R) E) as (S1 & S2 & S3 & S4).
    pose proof (pq_is_some q m e R) as IS.
    destruct (map_find e (pmeta q)) as [old|] eqn:F; simpl in IS.
    + pose proof (proj1 (pr_meta _ _ R e old) F) as [Ho1 Ho2].
      destruct fresh.
      * destruct (S3 eq_refl) as (-> & S5 & S6).
        assert (Hne : old <> (p, e)).
        { intros ->. apply (S6 _ Ho1). simpl. rewrite !(sw_irrefl _ SW). auto. }
        destruct (set_erase_spec old vals1 S1) as (vals2 & E2 & T1 & T2); [apply S5; auto|].
        rewrite E2. do 3 eexists. split; [reflexivity|]. split.
        { replace (b2z false) with (b2z (negb (is_some (m e)))) by (rewrite <- IS; auto). constructor. }
        constructor; simpl; auto.
        -- rewrite map_set_keys. apply (pr_keys _ _ R).
        -- intros e' y. rewrite map_find_set by congruence. rewrite T2, S5.
           destruct (Z.eqb_spec e' e).
           ++ subst e'. split.
              ** intros K. inversion K; subst. auto.
              ** intros [[[->|K1] K2] K3]; auto. exfalso. apply K2.
                 assert (map_find e (pmeta q) = Some y) by (apply (pr_meta _ _ R); auto). congruence.
           ++ rewrite (pr_meta _ _ R). split.
              ** intros [K1 K2]. split; auto. split; auto. intros ->. congruence.
              ** intros [[[->|K1] K2] K3]; auto. simpl in K3. congruence.
        -- intros e'. rewrite map_find_set by congruence. unfold set_prio.
           destruct (e' =? e); [simpl; rewrite !(sw_irrefl _ SW); auto|apply (pr_prio _ _ R)].
      * destruct (S4 eq_refl) as (-> & S5 & S6). do 3 eexists. split; [reflexivity|]. split.
        { replace (b2z false) with (b2z (negb (is_some (m e)))) by (rewrite <- IS; auto). constructor. }
        simpl in S5, S6.
        assert (it = old).
        { assert (map_find e (pmeta q) = Some it) by (apply (pr_meta _ _ R); auto). congruence. }
        subst it. destruct q as [v mt]; simpl in *. constructor; simpl;
          try apply (pr_sorted _ _ R); try apply (pr_keys _ _ R).
        -- apply (pr_meta _ _ R).
        -- intros e'. unfold set_prio. destruct (Z.eqb_spec e' e); [|apply (pr_prio _ _ R)].
           subst. rewrite F. auto.
    + destruct fresh.
      * destruct (S3 eq_refl) as (-> & S5 & S6). do 3 eexists. split; [reflexivity|]. split.
        { replace (b2z true) with (b2z (negb (is_some (m e)))) by (rewrite <- IS; auto). constructor. }
        constructor; simpl; auto.
        -- constructor; [apply map_find_none_notin; auto|apply (pr_keys _ _ R)].
        -- intros e' y. rewrite S5. destruct (Z.eqb_spec e' e).
           ++ subst. split.
              ** intros K. inversion K; subst. auto.
              ** intros [[->|K1] K2]; auto. exfalso.
                 assert (map_find e (pmeta q) = Some y) by (apply (pr_meta _ _ R); auto). congruence.
           ++ rewrite (pr_meta _ _ R). split; [tauto|].
              intros [[->|K1] K2]; auto. simpl in K2. congruence.
        -- intros e'. unfold set_prio.
           destruct (e' =? e); [simpl; rewrite !(sw_irrefl _ SW); auto|apply (pr_prio _ _ R)].
      * destruct (S4 eq_refl) as (-> & S5 & S6). simpl in S6. exfalso.
        assert (map_find e (pmeta q) = Some it) by (apply (pr_meta _ _ R); auto). congruence.
  - unfold pq_erase. pose proof (pq_is_some q m e R) as IS.
    destruct (map_find e (pmeta q)) as [x|] eqn:F; simpl in IS.
    + pose proof (proj1 (pr_meta _ _ R e x) F) as [Ho1 Ho2].
      destruct (set_erase_spec x (pvals q) (pr_sorted _ _ R) Ho1) as (l' & E & T1 & T2). rewrite E.
      do 3 eexists. split; [reflexivity|]. split.
      { replace (b2z true) with (b2z (is_some (m e))) by (rewrite <- IS; auto). constructor. }
      subst e. apply pq_remove_rel; auto.
    + do 3 eexists. split; [reflexivity|]. split.
      { replace (b2z false) with (b2z (is_some (m e))) by (rewrite <- IS; auto). constructor. }
      constructor; try apply R. intros e'. unfold set_prio. destruct (Z.eqb_spec e' e); [|apply (pr_prio _ _ R)].
      subst. rewrite F. auto.
  - unfold pq_pop. specialize (A eq_refl). unfold pq_empty in A.
    pose proof (pr_sorted _ _ R) as Hs. destruct (pvals q) as [|[p e] r] eqn:V; [discriminate|].
    inversion Hs as [|? ? Hs' Hall]; subst. rewrite Forall_forall in Hall.
    assert (Fe : map_find e (pmeta q) = Some (p, e)).
    { apply (pr_meta _ _ R). rewrite V. simpl. auto. }
    do 3 eexists. split; [reflexivity|]. split.
    + apply spec_pop. pose proof (pr_prio _ _ R e) as Q. rewrite Fe in Q. simpl in Q.
      destruct (m e) as [pe|] eqn:Me; [|tauto]. exists pe. split; auto.
      intros e' p' Me'. pose proof (pr_prio _ _ R e') as Q'. rewrite Me' in Q'.
      destruct (map_find e' (pmeta q)) as [x|] eqn:F'; [|tauto].
      pose proof (proj1 (pr_meta _ _ R e' x) F') as [K1 K2]. rewrite V in K1. simpl in K1.
      destruct K1 as [<-|K1].
      * simpl in *. subst e'. rewrite Me in Me'. inversion Me'; subst. rewrite (sw_irrefl _ SW). split; auto; lia.
      * specialize (Hall _ K1). apply plt_iff in Hall. simpl in Hall. destruct Hall as [L|[L1 L2]].
        -- assert (c pe p' = true).
           { apply (c_eqv_l pe p); [tauto|]. apply (c_eqv_r p (fst x)); auto. }
           split; [apply c_asym; auto|congruence].
        -- assert (EV : eqv pe p').
           { apply (eqv_trans pe p); [tauto|]. apply (eqv_trans p (fst x)); auto. }
           split; [tauto|lia].
    + apply (pq_remove_rel q m (p, e) r R); auto.
      * rewrite V. simpl. auto.
      * intros y. rewrite V. simpl. split.
        -- intros Hy. split; auto. intros ->. specialize (Hall _ Hy). rewrite plt_irrefl in Hall. discriminate.
        -- intros [[->|Hy] N]; [congruence|auto].
Qed.

(** Membership and the top element agree with the map. *)
Lemma pq_rel_top : forall q m, pq_rel q m ->
  (pq_empty q = true <-> forall e, m e = None) /\ (forall e, pq_top q = Some e -> is_first c m e).
Proof.
  intros q m R. split.
  - unfold pq_empty. destruct (pvals q) as [|x r] eqn:V.
    + split; auto. intros _ e. pose proof (pr_prio _ _ R e) as Q.
      destruct (map_find e (pmeta q)) as [y|] eqn:F; [|destruct (m e); tauto].
      apply (pr_meta _ _ R) in F. rewrite V in F. simpl in F. tauto.
    + split; [discriminate|]. intros N. pose proof (pr_prio _ _ R (snd x)) as Q. rewrite N in Q.
      assert (F : map_find (snd x) (pmeta q) = Some x) by (apply (pr_meta _ _ R); rewrite V; simpl; auto).
      rewrite F in Q. tauto.
  - intros e Ht. destruct (pq_do_refines q m PPop R) as (q' & x & m' & E & S1 & _).
    { intros _. unfold pq_empty, pq_top in *. destruct (pvals q) as [|[p k] r]; [discriminate|auto]. }
    simpl in E. unfold pq_pop, pq_top in *. destruct (pvals q) as [|[p k] r]; [discriminate|].
    inversion Ht; inversion E; subst. inversion S1; subst. auto.
Qed.

Lemma pq_run_refines : forall ops q m q' xs, pq_rel q m -> pq_run c q ops = Some (q', xs) ->
  exists m', pq_spec_run c m ops m' xs /\ pq_rel q' m'.
Proof.
  induction ops as [|o ops IH]; intros q m q' xs R E; simpl in E.
  - inversion E; subst. exists m. split; [constructor|auto].
  - assert (A : allowed q o).
    { intros ->. simpl in E. unfold pq_pop, pq_empty in *. destruct (pvals q) as [|[p k] r]; auto; discriminate. }
    destruct (pq_do_refines q m o R A) as (q1 & x & m1 & D & S1 & R1). rewrite D in E.
    destruct (pq_run c q1 ops) as [[q2 ys]|] eqn:E2; [|discriminate]. inversion E; subst.
    destruct (IH _ _ _ _ R1 E2) as (m2 & S2 & R2). exists m2. split; auto. econstructor; eauto.
Qed.
End PQ.
