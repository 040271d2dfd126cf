(** The strategy that drops the block whose next request is farthest away needs
    no more loads than any other. *)
From Coq Require Import ZArith List Bool Lia Permutation Arith.
From Verif Require Import BsModel BsSpec BeladySpec.
Import ListNotations.

Lemma mem_nat_In x l : mem_nat x l = true <-> In x l.
Proof.
  unfold mem_nat. rewrite existsb_exists. split.
  - intros (y & H & E). apply Nat.eqb_eq in E. subst. assumption.
  - intros H. exists x. rewrite Nat.eqb_refl. auto.
Qed.
Lemma mem_nat_false x l : mem_nat x l = false <-> ~ In x l.
Proof. rewrite <- mem_nat_In. destruct (mem_nat x l); split; congruence. Qed.

Definition fl (f : nat -> bool) (l : list nat) : nat := length (filter f l).

Lemma fl_le f g l : (forall x, In x l -> f x = true -> g x = true) -> fl f l <= fl g l.
Proof.
  unfold fl. induction l as [|x l IH]; intros H; cbn; [lia|].
  assert (I : length (filter f l) <= length (filter g l)) by (apply IH; intros; apply H; auto; right; assumption).
  specialize (H x (or_introl eq_refl)). destruct (f x); [rewrite H by reflexivity; cbn; lia|].
  destruct (g x); cbn; lia.
Qed.
Lemma fl_ext f g l : (forall x, In x l -> f x = g x) -> fl f l = fl g l.
Proof. intros H. apply Nat.le_antisymm; apply fl_le; intros x Hx E; specialize (H x Hx); congruence. Qed.
Lemma fl_split f g l : fl f l = fl (fun x => f x && g x) l + fl (fun x => f x && negb (g x)) l.
Proof.
  unfold fl. induction l as [|x l IH]; cbn; [reflexivity|].
  destruct (f x), (g x); cbn; lia.
Qed.
Lemma fl_len f l : fl f l <= length l.
Proof. unfold fl. induction l as [|x l IH]; cbn; [lia|]. destruct (f x); cbn; lia. Qed.
Lemma fl_all f l : (forall x, In x l -> f x = true) -> fl f l = length l.
Proof.
  intros H. unfold fl. induction l as [|x l IH]; cbn; [reflexivity|].
  rewrite (H x (or_introl eq_refl)). cbn. rewrite IH; [reflexivity|]. intros y Hy. apply H. right. assumption.
Qed.
Lemma fl_one b f l : NoDup l -> In b l -> fl (fun x => f x && Nat.eqb x b) l = if f b then 1 else 0.
Proof.
  unfold fl. induction l as [|x l IH]; intros N H; [contradiction|].
  inversion N as [|? ? N1 N2]; subst. cbn. destruct (Nat.eqb_spec x b) as [->|n].
  - assert (Z0 : fl (fun x => f x && Nat.eqb x b) l = 0).
    { unfold fl. rewrite (proj2 (length_zero_iff_nil _)); [reflexivity|].
      clear -N1. induction l as [|y l IH]; [reflexivity|]. cbn.
      destruct (Nat.eqb_spec y b) as [->|n]; [exfalso; apply N1; left; reflexivity|].
      rewrite andb_false_r. apply IH. intros K. apply N1. right. assumption. }
    unfold fl in Z0. rewrite andb_true_r. destruct (f b); cbn; lia.
  - rewrite andb_false_r. destruct H as [H|H]; [congruence|]. auto.
Qed.
Lemma fl_absent b f l : ~ In b l -> fl (fun x => f x && Nat.eqb x b) l = 0.
Proof.
  intros H. unfold fl. induction l as [|x l IH]; cbn; [reflexivity|].
  destruct (Nat.eqb_spec x b) as [->|n]; [exfalso; apply H; left; reflexivity|].
  rewrite andb_false_r. apply IH. intros K. apply H. right. assumption.
Qed.
Lemma fl_incl f g l l' : NoDup l -> (forall x, In x l -> f x = true -> In x l' /\ g x = true) -> fl f l <= fl g l'.
Proof.
  intros N H. unfold fl. apply NoDup_incl_length; [apply NoDup_filter; assumption|].
  intros x Hx. apply filter_In in Hx. apply filter_In. destruct Hx. auto.
Qed.
Lemma fl_perm f l l' : NoDup l -> NoDup l' -> (forall x, In x l <-> In x l') -> fl f l = fl f l'.
Proof.
  intros N N' H. apply Nat.le_antisymm; apply fl_incl; auto; intros x Hx E; split; auto; apply H; assumption.
Qed.

(** The blocks of [X] that are among the next [t] requests. *)
Definition soon (sg : list nat) (t x : nat) : bool := mem_nat x (firstn t sg).
Definition cnt (sg : list nat) (X : list nat) (t : nat) : nat := fl (soon sg t) X.

(** No block of [C] is requested later than [v]. *)
Definition farthest (sg : list nat) (C : list nat) (v : nat) : Prop :=
  forall t x, In x C -> soon sg t v = true -> soon sg t x = true.

(** The contents after a request for [b] that is followed by the requests [sg]. *)
Definition lfd_next (m : nat) (C : list nat) (b : nat) (sg : list nat) (C' : list nat) : Prop :=
  NoDup C' /\
  ((In b C /\ forall x, In x C' <-> In x C) \/
   (~ In b C /\ length C < m /\ forall x, In x C' <-> x = b \/ In x C) \/
   (~ In b C /\ exists v, In v C /\ length C = m /\ farthest sg C v /\ forall x, In x C' <-> x = b \/ (In x C /\ x <> v))).

Inductive lfd_serves (m : nat) : list nat -> list nat -> nat -> Prop :=
| lfd_nil C : lfd_serves m C [] 0
| lfd_cons C C' b sg n : lfd_next m C b sg C' -> lfd_serves m C' sg n ->
    lfd_serves m C (b :: sg) ((if mem_nat b C then 0 else 1) + n).

Lemma soon_cons b sg t x : soon (b :: sg) (S t) x = Nat.eqb x b || soon sg t x.
Proof. reflexivity. Qed.

Lemma fl_without f b l : NoDup l ->
  fl f l = fl (fun x => f x && negb (Nat.eqb x b)) l + (if mem_nat b l && f b then 1 else 0).
Proof.
  intros N. rewrite (fl_split f (fun x => Nat.eqb x b)). rewrite Nat.add_comm. f_equal.
  destruct (mem_nat b l) eqn:E; cbn [andb].
  - apply fl_one; [assumption|apply mem_nat_In; assumption].
  - apply fl_absent. apply mem_nat_false. assumption.
Qed.

(** The requests soon and the one of [b]. *)
Lemma cnt_with b sg t X : NoDup X ->
  cnt (b :: sg) X (S t) = fl (fun x => soon sg t x && negb (Nat.eqb x b)) X + (if mem_nat b X then 1 else 0).
Proof.
  intros N. unfold cnt. rewrite (fl_without _ b X N). rewrite soon_cons, Nat.eqb_refl. cbn [orb].
  rewrite andb_true_r. f_equal. apply fl_ext. intros x _. rewrite soon_cons.
  destruct (Nat.eqb x b), (soon sg t x); reflexivity.
Qed.

(** The effect of a step of any strategy. *)
Lemma step_any b D D' w : NoDup D -> NoDup D' -> In b D' ->
  fl w D' + (if mem_nat b D then 0 else 1) <=
  fl (fun x => w x && negb (Nat.eqb x b)) D + loaded D D' + (if w b then 1 else 0).
Proof.
  intros N N' Hb. rewrite (fl_without w b D' N').
  rewrite (proj2 (mem_nat_In b D') Hb). cbn [andb].
  set (g := fun x => w x && negb (Nat.eqb x b)).
  rewrite (fl_split g (fun x => mem_nat x D) D').
  assert (A : fl (fun x => g x && mem_nat x D) D' <= fl g D).
  { apply fl_incl; [assumption|]. intros x _ E. apply andb_prop in E. destruct E as (E1 & E2).
    apply mem_nat_In in E2. auto. }
  assert (B : fl (fun x => g x && negb (mem_nat x D)) D' + (if mem_nat b D then 0 else 1) <= loaded D D').
  { unfold loaded. fold (fl (fun x => negb (mem_nat x D)) D').
    rewrite (fl_without (fun x => negb (mem_nat x D)) b D' N').
    rewrite (proj2 (mem_nat_In b D') Hb). cbn [andb].
    assert (fl (fun x => g x && negb (mem_nat x D)) D' <= fl (fun x => negb (mem_nat x D) && negb (Nat.eqb x b)) D').
    { apply fl_le. intros x _ E. unfold g in E. destruct (w x), (Nat.eqb x b), (mem_nat x D); cbn in *; congruence. }
    destruct (mem_nat b D); cbn [negb]; lia. }
  lia.
Qed.

Lemma lfd_next_length m C b sg C' : NoDup C -> length C <= m -> lfd_next m C b sg C' -> length C' <= m.
Proof.
  intros N L (N' & [(H1 & H)|[(H1 & H2 & H)|(H1 & v & H2 & H3 & H4 & H)]]).
  - etransitivity; [|exact L]. apply NoDup_incl_length; [assumption|]. intros x Hx. apply H. assumption.
  - transitivity (length (b :: C)); [|cbn; lia]. apply NoDup_incl_length; [assumption|].
    intros x Hx. apply H in Hx. destruct Hx as [->|Hx]; [left; reflexivity|right; assumption].
  - transitivity (length (b :: remove Nat.eq_dec v C)).
    + apply NoDup_incl_length; [assumption|]. intros x Hx. apply H in Hx.
      destruct Hx as [->|(Hx & n)]; [left; reflexivity|right]. apply in_in_remove; auto.
    + cbn. pose proof (remove_length_lt Nat.eq_dec C v H2). lia.
Qed.

Lemma lfd_step_potential m C C' D D' b sg k : NoDup C -> length C <= m -> NoDup D ->
  (forall t, cnt (b :: sg) D t <= cnt (b :: sg) C t + k) ->
  lfd_next m C b sg C' -> NoDup D' -> length D' <= m -> In b D' ->
  (if mem_nat b C then 0 else 1) <= k + loaded D D' /\
  forall t, cnt sg D' t + (if mem_nat b C then 0 else 1) <= cnt sg C' t + (k + loaded D D').
Proof.
  intros NC LC ND H Hn ND' LD' Hb.
  assert (Hm : (if mem_nat b C then 0 else 1) <= k + loaded D D').
  { destruct (mem_nat b C) eqn:EC; [lia|].
    pose proof (step_any b D D' (fun _ => false) ND ND' Hb) as S0.
    specialize (H 1). rewrite !cnt_with, EC in H by assumption. cbn beta in S0.
    assert (Z1 : forall l, fl (fun _ => false) l = 0) by (intros l; unfold fl; induction l; auto).
    assert (Z2 : forall f l, (forall x, f x = false) -> fl f l = 0).
    { intros f l E. rewrite <- (Z1 l). apply fl_ext. auto. }
    rewrite !Z2 in H by reflexivity. rewrite !Z2 in S0 by reflexivity.
    destruct (mem_nat b D); lia. }
  split; [exact Hm|]. intros t.
  pose proof (step_any b D D' (soon sg t) ND ND' Hb) as S1.
  specialize (H (S t)). rewrite !cnt_with in H by assumption.
  set (nD := fl (fun x => soon sg t x && negb (Nat.eqb x b)) D) in *.
  set (nC := fl (fun x => soon sg t x && negb (Nat.eqb x b)) C) in *.
  unfold cnt at 1. unfold cnt.
  destruct Hn as (NC' & [(H1 & HC)|[(H1 & H2 & HC)|(H1 & v & H2 & H3 & H4 & HC)]]).
  - rewrite (proj2 (mem_nat_In b C) H1) in *.
    rewrite (fl_perm (soon sg t) C' C NC' NC HC), (fl_without (soon sg t) b C NC).
    rewrite (proj2 (mem_nat_In b C) H1). cbn [andb]. fold nC. destruct (mem_nat b D); lia.
  - rewrite (proj2 (mem_nat_false b C) H1) in *.
    rewrite (fl_perm (soon sg t) C' (b :: C) NC'); [|constructor; assumption|].
    2:{ intros x. rewrite HC. cbn. firstorder congruence. }
    assert (E : fl (soon sg t) (b :: C) = (if soon sg t b then 1 else 0) + fl (soon sg t) C)
      by (unfold fl; cbn; destruct (soon sg t b); reflexivity).
    rewrite E, (fl_without (soon sg t) b C NC), (proj2 (mem_nat_false b C) H1). cbn [andb]. fold nC.
    destruct (mem_nat b D); lia.
  - rewrite (proj2 (mem_nat_false b C) H1) in *.
    set (C1 := filter (fun x => negb (Nat.eqb x v)) C).
    assert (N1 : NoDup (b :: C1)).
    { constructor; [|apply NoDup_filter; assumption]. intros K. apply filter_In in K. tauto. }
    rewrite (fl_perm (soon sg t) C' (b :: C1) NC' N1).
    2:{ intros x. rewrite HC. unfold C1. cbn. rewrite filter_In. destruct (Nat.eqb_spec x v); cbn; intuition congruence. }
    assert (E : fl (soon sg t) (b :: C1) = (if soon sg t b then 1 else 0) + fl (soon sg t) C1)
      by (unfold fl; cbn; destruct (soon sg t b); reflexivity).
    rewrite E.
    assert (E1 : fl (soon sg t) C1 = fl (fun x => soon sg t x && negb (Nat.eqb x v)) C).
    { unfold C1, fl. clear. induction C as [|x C IH]; cbn; [reflexivity|].
      destruct (Nat.eqb x v); cbn; [rewrite andb_false_r; exact IH|].
      rewrite andb_true_r. destruct (soon sg t x); cbn; rewrite ?IH; reflexivity. }
    pose proof (fl_without (soon sg t) v C NC) as E2. rewrite (proj2 (mem_nat_In v C) H2) in E2. cbn [andb] in E2.
    pose proof (fl_without (soon sg t) b C NC) as E3. rewrite (proj2 (mem_nat_false b C) H1) in E3. cbn [andb] in E3.
    fold nC in E3.
    destruct (soon sg t v) eqn:Ev.
    + assert (A : fl (soon sg t) C = length C) by (apply fl_all; intros x Hx; apply (H4 t x Hx Ev)).
      pose proof (fl_without (soon sg t) b D' ND') as E4. rewrite (proj2 (mem_nat_In b D') Hb) in E4. cbn [andb] in E4.
      assert (E5 : fl (fun x => soon sg t x && negb (Nat.eqb x b)) D' + 1 <= length D').
      { assert (E6 : fl (fun x => true && Nat.eqb x b) D' = 1) by (apply (fl_one b (fun _ => true)); assumption).
        pose proof (fl_split (fun _ => true) (fun x => Nat.eqb x b) D') as E7.
        pose proof (fl_len (fun _ => true) D') as E8. cbn beta in E7. rewrite E6 in E7.
        assert (fl (fun x => soon sg t x && negb (Nat.eqb x b)) D' <= fl (fun x => true && negb (Nat.eqb x b)) D').
        { apply fl_le. intros x _ K. apply andb_prop in K. apply K. }
        lia. }
      lia.
    + destruct (mem_nat b D); lia.
Qed.

(** The comparison, for caches that differ. *)
Lemma lfd_best m sg : forall C D n n' k, NoDup C -> length C <= m -> NoDup D ->
  (forall t, cnt sg D t <= cnt sg C t + k) ->
  lfd_serves m C sg n -> served m D sg n' -> n <= n' + k.
Proof.
  induction sg as [|b sg IH]; intros C D n n' k NC LC ND H Hl Hs.
  - inversion Hl; subst. lia.
  - inversion Hl as [|C0 C' b0 sg0 n0 Hn Hr]; subst. inversion Hs as [|D0 D' b1 sg1 n1 N L B Hr2]; subst.
    destruct (lfd_step_potential m C C' D D' b sg k NC LC ND H Hn N L B) as (P1 & P2).
    pose proof (lfd_next_length m C b sg C' NC LC Hn) as L'.
    set (j := loaded D D') in *. set (e := if mem_nat b C then 0 else 1) in *.
    assert (I : n0 <= n1 + (k + j - e)).
    { apply (IH C' D'); auto; [apply Hn|]. intros t. specialize (P2 t). lia. }
    lia.
Qed.

Theorem lfd_optimal m C sg n n' : NoDup C -> length C <= m -> lfd_serves m C sg n -> served m C sg n' -> n <= n'.
Proof.
  intros N L H1 H2. pose proof (lfd_best m sg C C n n' 0 N L N) as K. rewrite Nat.add_0_r in K. apply K; auto.
  intros t. lia.
Qed.

(** The strategy is one of those it is compared with. *)
Lemma lfd_is_served m sg : forall C n, 0 < m -> NoDup C -> length C <= m -> lfd_serves m C sg n -> served m C sg n.
Proof.
  induction sg as [|b sg IH]; intros C n Hm N L H; inversion H as [|C0 C' b0 sg0 n0 Hn Hr]; subst; [constructor|].
  pose proof (lfd_next_length m C b sg C' N L Hn) as L'.
  assert (I : served m C' sg n0) by (apply IH; auto; apply Hn).
  destruct Hn as (NC' & HC).
  assert (E : loaded C C' = if mem_nat b C then 0 else 1);
    [|rewrite <- E; apply served_cons; auto].
  - unfold loaded. destruct HC as [(H1 & HC)|[(H1 & H2 & HC)|(H1 & v & H2 & H3 & H4 & HC)]].
    + rewrite (proj2 (mem_nat_In b C) H1). rewrite (proj2 (length_zero_iff_nil _)); [reflexivity|].
      destruct (filter _ C') as [|x r] eqn:Ef; [reflexivity|exfalso].
      assert (K : In x (filter (fun x => negb (mem_nat x C)) C')) by (rewrite Ef; left; reflexivity).
      apply filter_In in K. destruct K as (K1 & K2). apply HC in K1. apply mem_nat_In in K1. rewrite K1 in K2. discriminate.
    + rewrite (proj2 (mem_nat_false b C) H1).
      change 1 with (length [b]). apply Permutation_length. apply NoDup_Permutation.
      * apply NoDup_filter. assumption.
      * constructor; [auto|constructor].
      * intros x. rewrite filter_In, HC. cbn. destruct (mem_nat x C) eqn:Ex; cbn.
        -- apply mem_nat_In in Ex. split; [intros (_ & K); discriminate|intros [->|[]]; contradiction].
        -- apply mem_nat_false in Ex. intuition congruence.
    + rewrite (proj2 (mem_nat_false b C) H1).
      change 1 with (length [b]). apply Permutation_length. apply NoDup_Permutation.
      * apply NoDup_filter. assumption.
      * constructor; [auto|constructor].
      * intros x. rewrite filter_In, HC. cbn. destruct (mem_nat x C) eqn:Ex; cbn.
        -- apply mem_nat_In in Ex. split; [intros (_ & K); discriminate|intros [->|[]]; contradiction].
        -- apply mem_nat_false in Ex. intuition congruence.
  - destruct HC as [(H1 & HC)|[(H1 & H2 & HC)|(H1 & v & H2 & H3 & H4 & HC)]]; apply HC; auto.
Qed.
