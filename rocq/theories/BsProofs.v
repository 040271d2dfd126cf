(** The relation between the block scheduler and the view of its client. *)
From Coq Require Import ZArith List Bool Lia Permutation Arith.
From Verif Require Import BsModel BsSpec.
Import ListNotations.

Definition opt {A} (o : option A) : list A := match o with Some a => [a] | None => [] end.
Definition held (n : nat) (f : nat -> sb) : list nat :=
  flat_map (fun b => opt (int (f b))) (seq 0 n).
Definition is_sim (a : alg) : bool := match a with Sim _ _ => true | _ => false end.

Definition brel (m d : nat -> Z) (B : sb) (v : view) : Prop :=
  rc B = refs v /\
  match int B with
  | None => refs v = 0 /\ dirty B = false /\ val v = option_map d (ext B)
  | Some i =>
      (refs v = 0 -> val v = Some (m i) /\ (dirty B = false -> val v = option_map d (ext B))) /\
      (1 <= refs v ->
         m i = work v /\ (drt v = true -> dirty B = true) /\
         (dirty B = true -> drt v = true \/ val v <> None) /\
         (dirty B = false -> val v = option_map d (ext B)) /\
         (val v <> None -> mdf v = false -> val v = Some (work v)))
  end.

Record R (max : nat) (hand xs : list nat) (s : st) (p : client) : Prop := mkR {
  R_perm : Permutation (hand ++ free_i s ++ held (nblk s) (blk s)) (seq 0 (nalloc s));
  R_max : nalloc s + remaining s = max;
  R_qnd : NoDup (evictables (al s));
  R_q : forall b, In b (evictables (al s)) <->
          b < nblk s /\ is_evictable (blk s b) = true /\ ~ In b xs;
  R_used : forall b e, ext (blk s b) = Some e -> In e (used s) /\ own p e = None;
  R_inj : forall b c e, ext (blk s b) = Some e -> ext (blk s c) = Some e -> b = c;
  R_own : forall e d, own p e = Some d -> In e (used s) /\ disk s e = d;
  R_live : forall b, live p b = true <-> b < nblk s /\ ~ In b (free_s s);
  R_fnd : NoDup (free_s s);
  R_free : forall b, In b (free_s s) -> b < nblk s;
  R_new : forall b, live p b = false -> blk s b = sb_new /\ vw p b = v0;
  R_simu : simu p = is_sim (al s);
  R_rel : forall b, live p b = true -> brel (mem s) (disk s) (blk s b) (vw p b)
}.

Lemma upd_same {A} (f : nat -> A) k v : upd f k v k = v.
Proof. unfold upd. rewrite Nat.eqb_refl. reflexivity. Qed.
Lemma upd_other {A} (f : nat -> A) k v x : x <> k -> upd f k v x = f x.
Proof. unfold upd. intros H. apply Nat.eqb_neq in H. rewrite H. reflexivity. Qed.

(** ** Internal blocks *)

Lemma flat_map_ext_in {X Y} (f g : X -> list Y) l :
  (forall x, In x l -> f x = g x) -> flat_map f l = flat_map g l.
Proof.
  induction l as [|x l IH]; intros H; [reflexivity|]. cbn. rewrite (H x), IH; auto.
  - intros y Hy. apply H. right; assumption.
  - left; reflexivity.
Qed.

Lemma held_ext n f g : (forall b, b < n -> int (f b) = int (g b)) -> held n f = held n g.
Proof.
  intros H. apply flat_map_ext_in. intros b Hb. apply in_seq in Hb. rewrite H by lia. reflexivity.
Qed.

Lemma held_split n f b : b < n -> exists l,
  Permutation (held n f) (opt (int (f b)) ++ l) /\
  (forall c i, c < n -> c <> b -> int (f c) = Some i -> In i l) /\
  (forall B, Permutation (held n (upd f b B)) (opt (int B) ++ l)).
Proof.
  intros Hb. unfold held.
  assert (E : seq 0 n = seq 0 b ++ b :: seq (S b) (n - S b)).
  { replace n with (b + S (n - S b)) at 1 by lia. rewrite seq_app. reflexivity. }
  rewrite E.
  exists (flat_map (fun b => opt (int (f b))) (seq 0 b) ++
          flat_map (fun b => opt (int (f b))) (seq (S b) (n - S b))).
  split; [|split].
  - rewrite flat_map_app. cbn [flat_map]. rewrite !app_assoc. apply Permutation_app_tail.
    apply Permutation_app_comm.
  - intros c i Hc Hn Hi. apply in_or_app.
    destruct (Nat.lt_ge_cases c b) as [L|L].
    + left. apply in_flat_map. exists c. split; [apply in_seq; lia|rewrite Hi; left; reflexivity].
    + right. apply in_flat_map. exists c. split; [apply in_seq; lia|rewrite Hi; left; reflexivity].
  - intros B. rewrite flat_map_app. cbn [flat_map]. rewrite upd_same.
    rewrite (flat_map_ext_in (fun b0 => opt (int (upd f b B b0))) (fun b => opt (int (f b))) (seq 0 b)).
    2:{ intros x Hx. apply in_seq in Hx. rewrite upd_other by lia. reflexivity. }
    rewrite (flat_map_ext_in (fun b0 => opt (int (upd f b B b0))) (fun b => opt (int (f b))) (seq (S b) _)).
    2:{ intros x Hx. apply in_seq in Hx. rewrite upd_other by lia. reflexivity. }
    rewrite !app_assoc. apply Permutation_app_tail. apply Permutation_app_comm.
Qed.

Lemma perm_NoDup_seq l n : Permutation l (seq 0 n) -> NoDup l.
Proof. intros H. eapply Permutation_NoDup; [symmetry; exact H|apply seq_NoDup]. Qed.

Lemma nodup_app_r {A} (l1 l2 : list A) : NoDup (l1 ++ l2) -> NoDup l2.
Proof. induction l1 as [|x l1 IH]; cbn; intros H; [assumption|]. inversion H; auto. Qed.

Lemma NoDup_app_disj {A} (l1 l2 : list A) x : NoDup (l1 ++ l2) -> In x l1 -> In x l2 -> False.
Proof.
  induction l1 as [|y l1 IH]; cbn; intros N H1 H2; [contradiction|].
  inversion N; subst. destruct H1 as [->|H1].
  - apply H3. apply in_or_app. right; assumption.
  - eauto.
Qed.

(** ** Changing one block *)

Lemma R_upd max hand xs s p b : R max hand xs s p -> live p b = true ->
  forall hand' xs' B' mem' disk' used' al' own' v' nc,
  Permutation (hand' ++ opt (int B')) (hand ++ opt (int (blk s b))) ->
  NoDup (evictables al') ->
  (forall c, In c (evictables al') <->
     c < nblk s /\ is_evictable (upd (blk s) b B' c) = true /\ ~ In c xs') ->
  is_sim al' = is_sim (al s) ->
  (forall i, ~ In i (opt (int B')) -> ~ In i hand' -> mem' i = mem s i) ->
  (forall e, ext (blk s b) <> Some e -> ext B' <> Some e -> In e (used s) -> own p e = None ->
     disk' e = disk s e) ->
  (forall e, ext B' = Some e -> In e used' /\ own' e = None) ->
  (forall c e, c <> b -> ext (blk s c) = Some e ->
     In e used' /\ own' e = None /\ ext B' <> Some e) ->
  (forall e d, own' e = Some d -> In e used' /\ disk' e = d) ->
  brel mem' disk' B' v' ->
  R max hand' xs'
    (mkSt (remaining s) (nalloc s) (free_i s) (nblk s) (upd (blk s) b B') (free_s s) al' mem' disk' used' nc)
    (mkC (live p) (upd (vw p) b v') own' (simu p)).
Proof.
  intros H Lb hand' xs' B' mem' disk' used' al' own' v' nc Hp Hnd Hq Hs Hm Hd He1 He2 Ho Hr.
  destruct H as [Rp Rm Rqn Rq Ru Ri Ro Rl Rfn Rf Rn Rs Rr].
  assert (Hb : b < nblk s) by (apply Rl; assumption).
  destruct (held_split (nblk s) (blk s) b Hb) as (l & P1 & L & P2).
  assert (NP : Permutation (hand' ++ free_i s ++ held (nblk s) (upd (blk s) b B')) (seq 0 (nalloc s))).
  { rewrite <- Rp. rewrite P1, (P2 B').
    transitivity ((hand' ++ opt (int B')) ++ free_i s ++ l).
    - rewrite <- !app_assoc. apply Permutation_app_head. rewrite !app_assoc.
      apply Permutation_app_tail. apply Permutation_app_comm.
    - rewrite Hp. rewrite <- !app_assoc. apply Permutation_app_head. rewrite !app_assoc.
      apply Permutation_app_tail. apply Permutation_app_comm. }
  constructor; cbn [remaining nalloc free_i nblk blk free_s al mem disk used live vw own simu]; auto.
  - intros c e Hc. destruct (Nat.eq_dec c b) as [->|n].
    + rewrite upd_same in Hc. auto.
    + rewrite upd_other in Hc by assumption. destruct (He2 c e n Hc) as (A1 & A2 & _). auto.
  - intros c c' e H1 H2. destruct (Nat.eq_dec c b) as [->|n], (Nat.eq_dec c' b) as [->|n'];
      rewrite ?upd_same, ?upd_other in * by assumption; auto.
    + exfalso. apply (He2 c' e n' H2). assumption.
    + exfalso. apply (He2 c e n H1). assumption.
    + eapply Ri; eassumption.
  - intros c Hc. assert (c <> b) by congruence. rewrite !upd_other by assumption. auto.
  - congruence.
  - intros c Hc. destruct (Nat.eq_dec c b) as [->|n].
    + rewrite !upd_same. assumption.
    + rewrite !upd_other by assumption. specialize (Rr c Hc).
      assert (Ed : option_map disk' (ext (blk s c)) = option_map (disk s) (ext (blk s c))).
      { destruct (ext (blk s c)) as [e|] eqn:Ee; [|reflexivity]. cbn. f_equal.
        destruct (Ru c e Ee) as (A1 & A2). apply Hd; auto.
        - intros E. apply n. eapply Ri; eassumption.
        - apply (He2 c e n Ee). }
      unfold brel in *. rewrite Ed. destruct (int (blk s c)) as [i|] eqn:Ei; [|assumption].
      assert (Em : mem' i = mem s i).
      { apply Hm.
        - intros K. apply perm_NoDup_seq in NP.
          rewrite (P2 B') in NP. apply nodup_app_r in NP.
          apply nodup_app_r in NP. eapply NoDup_app_disj; [exact NP|exact K|].
          eapply L; [|exact n|exact Ei]. apply Rl. assumption.
        - intros K. apply perm_NoDup_seq in NP. eapply NoDup_app_disj; [exact NP|exact K|].
          apply in_or_app. right. rewrite (P2 B'). apply in_or_app. right.
          eapply L; [|exact n|exact Ei]. apply Rl. assumption. }
      rewrite Em. assumption.
Qed.

(** Only pointwise values matter. *)
Lemma R_ext max hand xs s p s' p' : R max hand xs s p ->
  remaining s' = remaining s -> nalloc s' = nalloc s -> free_i s' = free_i s ->
  nblk s' = nblk s -> (forall b, blk s' b = blk s b) -> free_s s' = free_s s ->
  al s' = al s -> (forall i, mem s' i = mem s i) -> (forall e, disk s' e = disk s e) ->
  (forall e, In e (used s') <-> In e (used s)) ->
  (forall b, live p' b = live p b) -> (forall b, vw p' b = vw p b) ->
  (forall e, own p' e = own p e) -> simu p' = simu p ->
  R max hand xs s' p'.
Proof.
  intros H E1 E2 E3 E4 E5 E6 E7 E8 E9 E10 E11 E12 E13 E14.
  destruct H as [Rp Rm Rqn Rq Ru Ri Ro Rl Rfn Rf Rn Rs Rr].
  constructor; rewrite ?E1, ?E2, ?E3, ?E4, ?E6, ?E7, ?E14; auto.
  - rewrite (held_ext (nblk s) (blk s') (blk s)); [assumption|]. intros; rewrite E5; reflexivity.
  - intros b. rewrite E5. apply Rq.
  - intros b e. rewrite E5, E10, E13. apply Ru.
  - intros b c e. rewrite !E5. apply Ri.
  - intros e d. rewrite E13, E10, E9. apply Ro.
  - intros b. rewrite E11. apply Rl.
  - intros b. rewrite E11, E5, E12. apply Rn.
  - intros b. rewrite E11, E5, E12. intros Hb. specialize (Rr b Hb). unfold brel in *.
    assert (Ed : option_map (disk s') (ext (blk s b)) = option_map (disk s) (ext (blk s b))).
    { destruct (ext (blk s b)); cbn; [rewrite E9|]; reflexivity. }
    rewrite Ed. destruct (int (blk s b)); [rewrite E8|]; assumption.
Qed.

Lemma R_return max i hand xs s p : R max (i :: hand) xs s p -> R max hand xs (return_free s i) p.
Proof.
  intros [Rp Rm Rqn Rq Ru Ri Ro Rl Rfn Rf Rn Rs Rr].
  constructor; auto; cbn. rewrite <- Rp. cbn [app]. symmetry. apply Permutation_middle.
Qed.

(** Taking an evictable block out of the queue. *)
Lemma pop_evictables a b a' : pop_evictable a = Some (b, a') ->
  evictables a = b :: evictables a' /\ is_sim a' = is_sim a.
Proof.
  destruct a as [[|x q]|[|x k] m|[|(z, x) q] nu]; cbn; intros H; inversion H; subst; auto.
Qed.

Lemma pop_none a : pop_evictable a = None <-> evictables a = [].
Proof.
  destruct a as [[|x q]|[|x k] m|[|(z, x) q] nu]; cbn; split; intros H; auto; discriminate.
Qed.

Lemma R_pop max hand s p b a : R max hand [] s p -> pop_evictable (al s) = Some (b, a) ->
  R max hand [b] (set_al s a) p /\ is_evictable (blk s b) = true /\ b < nblk s /\ live p b = true.
Proof.
  intros H Hp. destruct (pop_evictables _ _ _ Hp) as (E & Es).
  destruct H as [Rp Rm Rqn Rq Ru Ri Ro Rl Rfn Rf Rn Rs Rr].
  assert (Hb : In b (evictables (al s))) by (rewrite E; left; reflexivity).
  apply Rq in Hb. destruct Hb as (B1 & B2 & _).
  split; [|split; [assumption|split; [assumption|]]].
  - rewrite E in Rqn. inversion Rqn; subst.
    constructor; auto; cbn [al set_al].
    + intros c. cbn [nblk blk set_al]. split.
      * intros Hc. assert (K : In c (evictables (al s))) by (rewrite E; right; assumption).
        apply Rq in K. destruct K as (K1 & K2 & _). repeat split; auto.
        intros [->|[]]. contradiction.
      * intros (K1 & K2 & K3). assert (K : In c (evictables (al s))) by (apply Rq; auto).
        rewrite E in K. destruct K as [->|K]; [exfalso; apply K3; left; reflexivity|assumption].
    + cbn. congruence.
  - destruct (live p b) eqn:L; [reflexivity|]. destruct (Rn b L) as (E1 & _).
    rewrite E1 in B2. discriminate.
Qed.

Lemma evictable_inv B : is_evictable B = true -> rc B = 0 /\ exists i, int B = Some i.
Proof.
  unfold is_evictable, is_acquired, is_internal. intros H. apply andb_prop in H.
  destruct H as (H1 & H2). destruct (int B) as [i|]; [|discriminate].
  destruct (rc B); [eauto|discriminate].
Qed.

Section Ops.
Variable pick : nat -> list nat -> nat.
Variable dflt : option Z.
Hypothesis Fresh : fresh_blocks pick.

Lemma detach_ok max hand s p b : R max hand [b] s p -> live p b = true ->
  is_evictable (blk s b) = true ->
  exists s1 i e, detach pick s b = Ok (s1, i) /\ int (blk s b) = Some i /\
    R max (i :: hand) [] s1 p /\
    (forall c, blk s1 c = upd (blk s) b (mkSb (Some e) None false 0) c) /\
    al s1 = al s /\ nblk s1 = nblk s /\ free_i s1 = free_i s /\ mem s1 = mem s /\
    free_s s1 = free_s s /\ remaining s1 = remaining s /\ nalloc s1 = nalloc s.
Proof.
  intros H Lb Ev. destruct (evictable_inv _ Ev) as (Erc & i & Ei).
  pose proof (R_rel _ _ _ _ _ H b Lb) as Br. unfold brel in Br. rewrite Ei in Br.
  destruct Br as (Er & Br & _). rewrite Erc in Er. symmetry in Er.
  destruct (Br Er) as (Ev1 & Ev2). clear Br.
  unfold detach. rewrite Ev. cbn [negb].
  assert (Q : forall e c, In c (evictables (al s)) <->
     c < nblk s /\ is_evictable (upd (blk s) b (mkSb (Some e) None false 0) c) = true /\ ~ In c []).
  { intros e c. rewrite (R_q _ _ _ _ _ H c). destruct (Nat.eq_dec c b) as [->|n].
    - rewrite upd_same. cbn. intuition discriminate.
    - rewrite upd_other by assumption. cbn. intuition. }
  destruct (dirty (blk s b)) eqn:Ed.
  - destruct (ext (blk s b)) as [e|] eqn:Ee.
    + unfold clean. rewrite Ed, Ee, Ei. cbn [negb]. cbn. rewrite upd_same. cbn.
      eexists. exists i, e. split; [reflexivity|]. split; [reflexivity|]. split.
      2:{ cbn. rewrite Erc. repeat split; auto. intros c. unfold upd. destruct (c =? b); reflexivity. }
      destruct (R_used _ _ _ _ _ H b e Ee) as (U1 & U2).
      eapply R_ext; [apply (R_upd max hand [b] s p b H Lb (i :: hand) []
          (mkSb (Some e) None false 0) (mem s) (upd (disk s) e (mem s i)) (used s) (al s)
          (own p) (vw p b) (ncall s))|..]; try reflexivity; cbn; auto.
      * rewrite Ei. cbn. rewrite app_nil_r. apply Permutation_cons_append.
      * exact (R_qnd _ _ _ _ _ H).
      * intros c. apply (Q e c).
      * intros e' N1 N2 _ _. apply upd_other. congruence.
      * intros e' Hx. injection Hx as <-. auto.
      * intros c e' n Hx. destruct (R_used _ _ _ _ _ H c e' Hx). repeat split; auto.
        intros K. injection K as <-. apply n. eapply (R_inj _ _ _ _ _ H); eassumption.
      * intros e' d Ho. destruct (R_own _ _ _ _ _ H e' d Ho) as (O1 & O2). split; [assumption|].
        rewrite upd_other by congruence. assumption.
      * unfold brel; cbn. rewrite upd_same. repeat split; auto.
      * intros c. unfold upd. destruct (c =? b); [rewrite Erc|]; reflexivity.
      * intros c. unfold upd. destruct (Nat.eqb_spec c b) as [->|]; reflexivity.
    + unfold clean. rewrite Ed, Ee, Ei. cbn [negb new_ext]. cbn. rewrite upd_same. cbn.
      set (e := pick (ncall s) (used s)).
      assert (Fe : ~ In e (used s)) by apply Fresh.
      eexists. exists i, e. split; [reflexivity|]. split; [reflexivity|]. split.
      2:{ cbn. rewrite Erc. repeat split; auto. intros c. unfold upd. destruct (c =? b); reflexivity. }
      eapply R_ext; [apply (R_upd max hand [b] s p b H Lb (i :: hand) []
          (mkSb (Some e) None false 0) (mem s) (upd (disk s) e (mem s i)) (e :: used s) (al s)
          (own p) (vw p b) (S (ncall s)))|..]; try reflexivity; cbn; auto.
      * rewrite Ei. cbn. rewrite app_nil_r. apply Permutation_cons_append.
      * exact (R_qnd _ _ _ _ _ H).
      * intros c. apply (Q e c).
      * intros e' N1 N2 _ _. apply upd_other. congruence.
      * intros e' Hx. injection Hx as <-. split; [left; reflexivity|].
        destruct (own p e) as [d|] eqn:Eo; [|reflexivity].
        destruct (R_own _ _ _ _ _ H e d Eo). contradiction.
      * intros c e' n Hx. destruct (R_used _ _ _ _ _ H c e' Hx). repeat split; auto.
        intros K. injection K as <-. contradiction.
      * intros e' d Ho. destruct (R_own _ _ _ _ _ H e' d Ho) as (O1 & O2). split; [auto|].
        rewrite upd_other by (intros ->; contradiction). assumption.
      * unfold brel; cbn. rewrite upd_same. repeat split; auto.
      * intros c. unfold upd. destruct (c =? b); [rewrite Erc|]; reflexivity.
      * intros c. unfold upd. destruct (Nat.eqb_spec c b) as [->|]; reflexivity.
  - unfold clean. rewrite Ed. cbn [negb bind]. rewrite Ei.
    specialize (Ev2 eq_refl). rewrite Ev1 in Ev2.
    destruct (ext (blk s b)) as [e|] eqn:Ee; [|discriminate].
    eexists. exists i, e. split; [reflexivity|]. split; [reflexivity|]. split.
    2:{ cbn. rewrite Erc, Ed. repeat split; auto. }
    destruct (R_used _ _ _ _ _ H b e Ee) as (U1 & U2).
    eapply R_ext; [apply (R_upd max hand [b] s p b H Lb (i :: hand) []
        (mkSb (Some e) None false 0) (mem s) (disk s) (used s) (al s)
        (own p) (vw p b) (ncall s))|..]; try reflexivity; cbn; auto.
    + rewrite Ei. cbn. rewrite app_nil_r. apply Permutation_cons_append.
    + exact (R_qnd _ _ _ _ _ H).
    + intros c. apply (Q e c).
    + intros e' Hx. injection Hx as <-. auto.
    + intros c e' n Hx. destruct (R_used _ _ _ _ _ H c e' Hx). repeat split; auto.
      intros K. injection K as <-. apply n. eapply (R_inj _ _ _ _ _ H); eassumption.
    + intros e' d Ho. exact (R_own _ _ _ _ _ H e' d Ho).
    + unfold brel; cbn. repeat split; auto. cbn in Ev2. congruence.
    + intros c. unfold upd. destruct (c =? b); [rewrite Erc, Ed|]; reflexivity.
    + intros c. unfold upd. destruct (Nat.eqb_spec c b) as [->|]; reflexivity.
Qed.

(** ** Getting an internal block *)

Lemma seq_split_first n m : 0 < m -> seq n m = n :: seq (n + 1) (m - 1).
Proof. destruct m; [lia|]. intros _. cbn. rewrite Nat.sub_0_r, Nat.add_1_r. reflexivity. Qed.

Lemma get_free_ok max hand s p s1 i : R max hand [] s p -> get_free s = Some (s1, i) ->
  R max (i :: hand) [] s1 p /\ blk s1 = blk s /\ al s1 = al s /\ nblk s1 = nblk s /\ disk s1 = disk s
  /\ mem s1 = mem s /\ free_s s1 = free_s s.
Proof.
  intros H. unfold get_free. destruct (free_i s) as [|j r] eqn:Ef.
  - destruct (0 <? remaining s) eqn:Er; [|discriminate]. cbv zeta.
    apply Nat.ltb_lt in Er.
    assert (Hn : 0 < Nat.min alloc_at_once (remaining s) /\
                 Nat.min alloc_at_once (remaining s) <= remaining s) by (unfold alloc_at_once; lia).
    revert Hn. generalize (Nat.min alloc_at_once (remaining s)) as num. intros num Hn E.
    injection E as <- <-.
    split; [|cbn; repeat split; reflexivity].
    destruct H as [Rp Rm Rqn Rq Ru Ri Ro Rl Rfn Rf Rn Rs Rr].
    constructor; auto; cbn [remaining nalloc free_i nblk blk]; [|lia].
    rewrite seq_app, Nat.add_0_l. rewrite <- Rp, Ef. cbn [app].
    rewrite (seq_split_first (nalloc s) num) by lia.
    transitivity ((hand ++ held (nblk s) (blk s)) ++ nalloc s :: seq (nalloc s + 1) (num - 1));
      [|reflexivity].
    rewrite <- Permutation_middle. apply perm_skip.
    rewrite <- app_assoc. apply Permutation_app_head. apply Permutation_app_comm.
  - intros E. injection E as <- <-. split; [|cbn; repeat split; reflexivity].
    destruct H as [Rp Rm Rqn Rq Ru Ri Ro Rl Rfn Rf Rn Rs Rr].
    constructor; auto; cbn. rewrite <- Rp, Ef. cbn [app]. apply Permutation_middle.
Qed.

(** Something is available unless nothing is free and nothing can be evicted. *)
Lemma get_block_ok max s p : R max [] [] s p ->
  (exists s1 i, get_block pick s = Ok (s1, i) /\ R max [i] [] s1 p /\
     (forall c, is_evictable (blk s c) = false -> blk s1 c = blk s c) /\
     is_sim (al s1) = is_sim (al s) /\ nblk s1 = nblk s /\ free_s s1 = free_s s) \/
  (get_block pick s = NoMemory /\ free_i s = [] /\ remaining s = 0 /\ evictables (al s) = []).
Proof.
  intros H. unfold get_block. destruct (get_free s) as [(s1, i)|] eqn:Eg.
  - left. exists s1, i. destruct (get_free_ok _ _ _ _ _ _ H Eg) as (A & E1 & E2 & E3 & _ & _ & E4).
    split; [reflexivity|]. split; [exact A|]. rewrite E1, E2, E3, E4. auto.
  - destruct (pop_evictable (al s)) as [(v, a)|] eqn:Ep.
    + left. destruct (R_pop _ _ _ _ _ _ H Ep) as (A & Ev & Vb & Lv).
      destruct (detach_ok _ _ _ _ _ A Lv Ev) as (s1 & i & e & D & Ei & A1 & Eb & Ea & En & _ & _ & Ef & _).
      exists s1, i. split; [exact D|]. split; [exact A1|]. split; [|split; [|split]].
      * intros c Hc. rewrite Eb. apply upd_other. intros ->. cbn in *. congruence.
      * rewrite Ea. cbn. apply (pop_evictables _ _ _ Ep).
      * exact En.
      * exact Ef.
    + right. split; [reflexivity|]. unfold get_free in Eg.
      destruct (free_i s); [|discriminate]. destruct (remaining s) as [|n]; [|discriminate].
      repeat split. apply pop_none. assumption.
Qed.

End Ops.
