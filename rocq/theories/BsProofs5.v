(** What operations do to blocks, for the properties C45 to C47. *)
From Coq Require Import ZArith List Bool Lia Permutation Arith Sorted.
From Verif Require Import BsModel BsSpec BsProofs BsProofs2 BsProofs3 BsProofs4.
Import ListNotations.

Section Ops.
Variable pick : nat -> list nat -> nat.
Variable dflt : option Z.

Lemma clean_effect s b s1 : clean pick s b = Ok s1 ->
  (forall c, c <> b -> blk s1 c = blk s c) /\ int (blk s1 b) = int (blk s b) /\
  rc (blk s1 b) = rc (blk s b) /\ al s1 = al s /\ nblk s1 = nblk s.
Proof.
  unfold clean. destruct (dirty (blk s b)); cbn [negb].
  - destruct (ext (blk s b)) as [e|]; cbn [new_ext]; destruct (int (blk s b)) as [i|] eqn:Ei; try discriminate;
      intros K; injection K as <-; cbn [blk set_disk set_b al nblk]; rewrite upd_same; cbn;
      repeat split; auto; intros c n; apply upd_other; assumption.
  - intros K; injection K as <-. auto.
Qed.

Lemma detach_effect s b s1 i : detach pick s b = Ok (s1, i) ->
  is_evictable (blk s b) = true /\ (forall c, c <> b -> blk s1 c = blk s c) /\
  int (blk s1 b) = None /\ rc (blk s1 b) = rc (blk s b) /\ al s1 = al s /\ nblk s1 = nblk s.
Proof.
  unfold detach. destruct (is_evictable (blk s b)) eqn:Ev; cbn [negb]; [|discriminate].
  destruct (clean pick s b) as [s2| |] eqn:Ec; cbn [bind]; try discriminate.
  destruct (clean_effect _ _ _ Ec) as (C1 & C2 & C3 & C4 & C5).
  destruct (int (blk s2 b)) as [j|]; [|discriminate]. intros K; injection K as <- <-.
  cbn [blk set_b al nblk]. rewrite upd_same. cbn. split; [reflexivity|]. split; [|auto].
  intros c n. rewrite upd_other by assumption. auto.
Qed.

Lemma evictable_not_acquired B : is_evictable B = true -> is_acquired B = false.
Proof. unfold is_evictable. destruct (is_acquired B); [discriminate|reflexivity]. Qed.

Lemma get_block_effect s s1 i : get_block pick s = Ok (s1, i) ->
  nblk s1 = nblk s /\ forall c, blk s1 c = blk s c \/
    (get_free s = None /\ int (blk s1 c) = None /\ is_evictable (blk s c) = true /\
     exists a, pop_evictable (al s) = Some (c, a)).
Proof.
  unfold get_block. destruct (get_free s) as [(s2, j)|] eqn:Eg.
  - intros K; injection K as <- <-. unfold get_free in Eg. destruct (free_i s).
    + destruct (0 <? remaining s); [|discriminate]. cbv zeta in Eg.
      revert Eg. generalize (Nat.min alloc_at_once (remaining s)). intros n Eg. injection Eg as <- <-. cbn. auto.
    + injection Eg as <- <-. cbn. auto.
  - destruct (pop_evictable (al s)) as [(v, a)|]; [|discriminate]. intros K.
    destruct (detach_effect _ _ _ _ K) as (D1 & D2 & D3 & D4 & D5 & D6). split; [exact D6|].
    intros c. destruct (Nat.eq_dec c v) as [->|n].
    + right. cbn in *. eauto.
    + left. rewrite D2 by assumption. reflexivity.
Qed.

Lemma acquire_effect s b un s1 i : acquire pick dflt s b un = Ok (s1, i) ->
  nblk s1 = nblk s /\
  (forall c, c <> b -> blk s1 c = blk s c \/
     (is_sim (al s) = false /\ int (blk s b) = None /\ get_free s = None /\ int (blk s1 c) = None /\
      is_evictable (blk s c) = true /\ exists a, pop_evictable (al s) = Some (c, a))) /\
  (is_sim (al s) = true -> blk s1 b = blk s b) /\
  (is_sim (al s) = false -> is_internal (blk s1 b) = true /\ is_acquired (blk s1 b) = true) /\
  (forall j, int (blk s b) = Some j -> int (blk s1 b) = Some j).
Proof.
  unfold acquire. destruct (b <? nblk s); cbn [negb]; [|discriminate].
  destruct (is_sim (al s)) eqn:Es.
  - destruct (al s) as [|k m|]; try discriminate. intros K; injection K as <- <-. cbn. 
    repeat split; auto; intros; try discriminate.
  - rewrite (Ncase _ Es). destruct (int (blk s b)) as [j|] eqn:Ei.
    + intros K; injection K as <- <-.
      destruct (is_acquired (blk s b)); cbn [negb blk set_b set_al nblk]; rewrite upd_same; cbn;
       (split; [reflexivity|]; split; [intros c n; rewrite upd_other by assumption; auto|]; split; [discriminate|]; split; auto).
    + destruct (get_block pick s) as [(s2, k)| |] eqn:Eg; cbn [bind]; try discriminate.
      destruct (get_block_effect _ _ _ Eg) as (G1 & G2).
      assert (Q : forall s3 B, (forall c, c <> b -> blk s3 c = blk s2 c) -> nblk s3 = nblk s2 -> blk s3 b = B ->
        is_internal B = true -> is_acquired B = true ->
        nblk s3 = nblk s /\
        (forall c, c <> b -> blk s3 c = blk s c \/
         (false = false /\ @None nat = None /\ get_free s = None /\ int (blk s3 c) = None /\
        is_evictable (blk s c) = true /\ exists a, pop_evictable (al s) = Some (c, a))) /\
        (false = true -> blk s3 b = blk s b) /\
        (false = false -> is_internal (blk s3 b) = true /\ is_acquired (blk s3 b) = true) /\
        (forall j, None = Some j -> int (blk s3 b) = Some j)).
      { intros s3 B A1 A2 A3 A4 A5. split; [congruence|]. split.
        - intros c n. rewrite (A1 c n). destruct (G2 c) as [G|(X1 & X2 & X3)]; [left; exact G|right; auto 10].
        - rewrite A3. split; [discriminate|]. split; [auto|discriminate]. }
      assert (U : forall B c, c <> b -> upd (blk s2) b B c = blk s2 c) by (intros B c; apply upd_other).
      destruct (sb_initialized (blk s2 b)); [destruct un; [|destruct (ext (blk s2 b)) as [e|]; [|discriminate]]|
        destruct dflt as [z|]; [destruct un|]];
      intros K; injection K as <- <-;
      (eapply Q; [cbn; apply U|reflexivity|cbn; apply upd_same|reflexivity|reflexivity]).
Qed.

Lemma release_with_effect s b d ins s1 : release_with pick s b d ins = Ok s1 ->
  (forall c, c <> b -> blk s1 c = blk s c) /\ nblk s1 = nblk s /\
  (rc (blk s b) <> 1 -> int (blk s1 b) = int (blk s b)) /\
  (al s1 = al s \/ al s1 = ins (set_b s b (mkSb (ext (blk s b)) (int (blk s b)) (d || dirty (blk s b)) (rc (blk s b) - 1)))).
Proof.
  unfold release_with. destruct (is_acquired (blk s b)) eqn:Ea; cbn [negb]; [|discriminate].
  apply acquired_rc in Ea.
  destruct (is_acquired (mkSb (ext (blk s b)) (int (blk s b)) (d || dirty (blk s b)) (rc (blk s b) - 1))) eqn:Ea1.
  - intros K; injection K as <-. cbn. rewrite upd_same. cbn. repeat split; auto. intros c n. apply upd_other; assumption.
  - apply acquired_false in Ea1. cbn in Ea1.
    destruct (dirty _ || is_external _).
    + intros K; injection K as <-. cbn. rewrite upd_same. cbn. repeat split; auto. intros c n. apply upd_other; assumption.
    + destruct (detach pick _ b) as [(s2, i)| |] eqn:Ed; cbn [bind]; try discriminate.
      intros K; injection K as <-. destruct (detach_effect _ _ _ _ Ed) as (D1 & D2 & D3 & D4 & D5 & D6).
      cbn in *. split; [intros c n; rewrite D2 by assumption; apply upd_other; assumption|].
      split; [assumption|]. split; [lia|left; assumption].
Qed.

Lemma flush_effect n : forall s s1 b, flush pick n s = Ok s1 -> is_acquired (blk s b) = true ->
  blk s1 b = blk s b.
Proof.
  induction n as [|n IH]; intros s s1 b; cbn.
  - destruct (pop_evictable (al s)) as [(c, a)|]; [discriminate|]. intros K; injection K as <-. reflexivity.
  - destruct (pop_evictable (al s)) as [(c, a)|]; [|intros K; injection K as <-; reflexivity].
    destruct (clean pick (set_al s a) c) as [s2| |] eqn:Ec; cbn [bind]; try discriminate.
    destruct (detach pick s2 c) as [(s3, i)| |] eqn:Ed; cbn [bind]; try discriminate.
    intros K Ha. destruct (clean_effect _ _ _ Ec) as (C1 & C2 & C3 & C4 & C5).
    destruct (detach_effect _ _ _ _ Ed) as (D1 & D2 & D3 & D4 & D5 & D6).
    assert (n0 : b <> c).
    { intros ->. apply evictable_not_acquired in D1. apply acquired_false in D1. apply acquired_rc in Ha.
      cbn in C3. rewrite C3 in D1. lia. }
    assert (E : blk (return_free s3 i) b = blk s b).
    { cbn. rewrite D2, C1 by assumption. reflexivity. }
    rewrite (IH _ _ _ K); [exact E|]. rewrite E. assumption.
Qed.

(** An acquired block keeps its internal block. *)
Lemma keep_int s o s1 r b : do pick dflt s o = Ok (s1, r) -> is_acquired (blk s b) = true -> b < nblk s ->
  (forall d, o = Rel b d -> rc (blk s b) <> 1) -> is_internal (blk s b) = true ->
  int (blk s1 b) = int (blk s b).
Proof.
  intros E Ha Hb Hn Hi. destruct o; cbn [do] in E.
  - destruct (acquire pick dflt s b0 un) as [(s2, i)| |] eqn:Ea; cbn [bind] in E; try discriminate.
    injection E as <- <-. destruct (acquire_effect _ _ _ _ _ Ea) as (A1 & A2 & A3 & A4 & A5).
    destruct (Nat.eq_dec b b0) as [<-|n].
    + unfold is_internal in Hi. destruct (int (blk s b)) as [j|]; [auto|discriminate].
    + destruct (A2 b n) as [->|(_ & _ & _ & _ & K & _)]; [reflexivity|].
      apply evictable_not_acquired in K. congruence.
  - destruct (release pick s b0 d) as [s2| |] eqn:Er; cbn [bind] in E; try discriminate. injection E as <- <-.
    assert (Hn' : b = b0 -> rc (blk s b) <> 1) by (intros ->; eapply Hn; reflexivity). clear Hn.
    unfold release in Er. destruct (b0 <? nblk s); cbn [negb] in Er; [|discriminate].
    assert (Q : forall s ins s2, release_with pick s b0 d ins = Ok s2 -> (b = b0 -> rc (blk s b) <> 1) ->
              int (blk s2 b) = int (blk s b)).
    { clear. intros s ins s2 E Hn. destruct (release_with_effect _ _ _ _ _ E) as (X1 & X2 & X3 & _).
      destruct (Nat.eq_dec b b0) as [<-|n]; [auto|]. rewrite X1 by assumption. reflexivity. }
    destruct (al s) as [q|k m|q [|t nu]] eqn:Eal.
    + eapply Q; eassumption.
    + injection Er as <-. reflexivity.
    + apply (Q _ _ _ Er). exact Hn'.
    + destruct (release_with pick s b0 d _) as [s3| |] eqn:E3; cbn [bind] in Er; try discriminate.
      specialize (Q _ _ _ E3 Hn'). destruct (al s3) as [| |q1 [|t1 nu1]]; try discriminate.
      injection Er as <-. exact Q.
  - destruct (deinitialize s b0) as [s2| |] eqn:Er; cbn [bind] in E; try discriminate. injection E as <- <-.
    unfold deinitialize in Er. destruct (b0 <? nblk s); cbn [negb] in Er; [|discriminate].
    destruct (is_sim (al s)) eqn:Es.
    + destruct (al s); try discriminate. injection Er as <-. reflexivity.
    + rewrite (Ncase _ Es) in Er. destruct (is_acquired (blk s b0)) eqn:Ea0; [discriminate|].
      assert (n : b <> b0) by congruence.
      injection Er as <-. destruct (ext (blk s b0)), (is_evictable (blk s b0)), (int (blk s b0)); cbn;
        rewrite upd_other by assumption; reflexivity.
  - destruct (initialize s b0 e) as [s2| |] eqn:Er; cbn [bind] in E; try discriminate. injection E as <- <-.
    unfold initialize in Er. destruct (b0 <? nblk s); cbn [negb] in Er; [|discriminate].
    destruct (is_sim (al s)) eqn:Es.
    + destruct (al s); try discriminate. injection Er as <-. reflexivity.
    + rewrite (Ncase _ Es) in Er. destruct (sb_initialized (blk s b0)); [discriminate|].
      injection Er as <-. cbn. unfold upd. destruct (Nat.eqb_spec b b0) as [->|]; reflexivity.
  - destruct (extract pick s b0) as [(s2, x)| |] eqn:Er; cbn [bind] in E; try discriminate. injection E as <- <-.
    unfold extract in Er. destruct (b0 <? nblk s); cbn [negb] in Er; [|discriminate].
    destruct (is_sim (al s)) eqn:Es.
    + destruct (al s); try discriminate. injection Er as <- <-. reflexivity.
    + rewrite (Ncase _ Es) in Er. cbv zeta in Er.
      assert (Eb : forall c, blk (if is_evictable (blk s b0) then set_al s (erase_evictable (al s) b0) else s) c = blk s c)
        by (intros c; destruct (is_evictable (blk s b0)); reflexivity).
      destruct (is_internal (blk s b0)) eqn:Ei0.
      * destruct (detach pick _ b0) as [(s3, i)| |] eqn:Ed; cbn [bind] in Er; try discriminate.
        injection Er as <- <-. destruct (detach_effect _ _ _ _ Ed) as (D1 & D2 & _).
        rewrite Eb in D1. apply evictable_not_acquired in D1. assert (n : b <> b0) by congruence.
        cbn. rewrite upd_other by assumption. rewrite D2, Eb by assumption. reflexivity.
      * cbn [bind] in Er. injection Er as <- <-. cbn [blk set_b]. unfold upd.
        destruct (Nat.eqb_spec b b0) as [->|]; cbn; rewrite Eb; reflexivity.
  - destruct (is_initialized s b0); cbn [bind] in E; try discriminate. injection E as <- <-. reflexivity.
  - unfold allocate in E. destruct (free_s s); injection E as <- <-; cbn; [|reflexivity].
    rewrite upd_other by lia. reflexivity.
  - unfold free_block in E. destruct (deinitialize s b0) as [s2| |] eqn:Er; cbn [bind] in E; try discriminate.
    injection E as <- <-. cbn [blk set_free_s].
    unfold deinitialize in Er. destruct (b0 <? nblk s); cbn [negb] in Er; [|discriminate].
    destruct (is_sim (al s)) eqn:Es.
    + destruct (al s); try discriminate. injection Er as <-. reflexivity.
    + rewrite (Ncase _ Es) in Er. destruct (is_acquired (blk s b0)) eqn:Ea0; [discriminate|].
      assert (n : b <> b0) by congruence.
      injection Er as <-. destruct (ext (blk s b0)), (is_evictable (blk s b0)), (int (blk s b0)); cbn;
        rewrite upd_other by assumption; reflexivity.
  - destruct (flush pick _ s) as [s2| |] eqn:Ef; cbn [bind] in E; try discriminate. injection E as <- <-.
    erewrite flush_effect; eauto.
  - injection E as <- <-. destruct (al s); reflexivity.
  - injection E as <- <-. reflexivity.
  - injection E as <- <-. reflexivity.
  - injection E as <- <-. unfold to_lfd. destruct (lfd_scan ps). reflexivity.
  - destruct (access s b0); cbn [bind] in E; try discriminate. injection E as <- <-. reflexivity.
  - destruct (access s b0); cbn [bind] in E; try discriminate. injection E as <- <-. reflexivity.
  - injection E as <- <-. reflexivity.
  - injection E as <- <-. reflexivity.
  - injection E as <- <-. reflexivity.
  - injection E as <- <-. reflexivity.
Qed.

(** ** Counting *)

Lemma flat_opt_length {A} (f : A -> option nat) l :
  length (flat_map (fun b => opt (f b)) l) = length (filter (fun b => match f b with Some _ => true | None => false end) l).
Proof. induction l as [|x l IH]; cbn; [reflexivity|]. rewrite app_length, IH. destruct (f x); reflexivity. Qed.

Lemma held_length s : length (held (nblk s) (blk s)) = length (internal_blocks s).
Proof. unfold held, internal_blocks, those. rewrite flat_opt_length. reflexivity. Qed.

Lemma R_internal max s p b : R max [] [] s p -> is_acquired (blk s b) = true ->
  is_internal (blk s b) = true /\ b < nblk s.
Proof.
  intros H Ha. destruct (live p b) eqn:Lb.
  - pose proof (R_rel _ _ _ _ _ H b Lb) as Br. unfold brel in Br. destruct Br as (Er & Br).
    apply acquired_rc in Ha. unfold is_internal. split; [|apply (R_live _ _ _ _ _ H); assumption].
    destruct (int (blk s b)); [reflexivity|lia].
  - destruct (R_new _ _ _ _ _ H b Lb) as (E & _). rewrite E in Ha. discriminate.
Qed.

Lemma filter_le {A} (f g : A -> bool) l : (forall x, In x l -> f x = true -> g x = true) ->
  length (filter f l) <= length (filter g l).
Proof.
  induction l as [|x l IH]; intros H; cbn; [lia|].
  assert (I : length (filter f l) <= length (filter g l)) by (apply IH; intros; apply H; auto; right; assumption).
  specialize (H x (or_introl eq_refl)). destruct (f x); [rewrite H by reflexivity; cbn; lia|].
  destruct (g x); cbn; lia.
Qed.

Lemma filter_eq_len {A} (f g : A -> bool) l : (forall x, In x l -> f x = true -> g x = true) ->
  length (filter f l) = length (filter g l) -> forall x, In x l -> g x = true -> f x = true.
Proof.
  induction l as [|y l IH]; intros H E x Hx Hg; [contradiction|].
  assert (H' : forall x, In x l -> f x = true -> g x = true) by (intros; apply H; auto; right; assumption).
  pose proof (filter_le f g l H') as I. cbn in E.
  assert (Ef : f y = g y).
  { destruct (f y) eqn:E1, (g y) eqn:E2; auto; cbn in E; [|lia]. rewrite (H y) in E2; auto. left; reflexivity. }
  destruct Hx as [->|Hx]; [congruence|]. apply IH; auto. rewrite Ef in E. destruct (g y); cbn in E; lia.
Qed.

Lemma R_counts max s p : R max [] [] s p ->
  length (free_i s) + length (internal_blocks s) = nalloc s /\ nalloc s + remaining s = max /\
  length (acquired_blocks s) <= length (internal_blocks s) /\
  (evictables (al s) = [] <-> length (acquired_blocks s) = length (internal_blocks s)).
Proof.
  intros H. split; [|split; [apply (R_max _ _ _ _ _ H)|]].
  - pose proof (Permutation_length (R_perm _ _ _ _ _ H)) as L. cbn in L.
    rewrite app_length, seq_length, held_length in L. exact L.
  - assert (I : forall x, In x (seq 0 (nblk s)) -> is_acquired (blk s x) = true -> is_internal (blk s x) = true)
      by (intros x _ Hx; apply (R_internal _ _ _ _ H Hx)).
    split; [apply filter_le; exact I|]. split.
    + intros E. apply Nat.le_antisymm; [apply filter_le; exact I|]. apply filter_le. intros x Hx Hi.
      destruct (is_acquired (blk s x)) eqn:Ea; [reflexivity|].
      assert (K : In x (evictables (al s))).
      { apply (R_q _ _ _ _ _ H). apply in_seq in Hx. split; [lia|]. split; [|auto].
        unfold is_evictable. rewrite Ea, Hi. reflexivity. }
      rewrite E in K. contradiction.
    + intros E. destruct (evictables (al s)) as [|x q] eqn:Eq; [reflexivity|exfalso].
      assert (K : In x (evictables (al s))) by (rewrite Eq; left; reflexivity).
      apply (R_q _ _ _ _ _ H) in K. destruct K as (K1 & K2 & _).
      assert (K3 : is_acquired (blk s x) = true).
      { refine (filter_eq_len (fun x => is_acquired (blk s x)) (fun x => is_internal (blk s x)) _ I E x _ _); [apply in_seq; lia|].
        unfold is_evictable in K2. apply andb_prop in K2. tauto. }
      apply evictable_not_acquired in K2. congruence.
Qed.

(** ** The order of the LRU queue *)

Lemma last_release_app k ops o b acc :
  last_release_from k (ops ++ [o]) b acc =
  match o with Rel c _ => if Nat.eqb c b then S (k + length ops) else last_release_from k ops b acc
             | _ => last_release_from k ops b acc end.
Proof.
  revert k acc. induction ops as [|x ops IH]; intros k acc; cbn [app last_release_from length].
  - rewrite Nat.add_0_r. destruct o; reflexivity.
  - rewrite IH. replace (S k + length ops) with (k + S (length ops)) by lia. reflexivity.
Qed.

Lemma last_release_le k ops b acc : acc <= k -> last_release_from k ops b acc <= k + length ops.
Proof.
  revert k acc. induction ops as [|x ops IH]; intros k acc H; cbn [last_release_from length]; [lia|].
  rewrite <- Nat.add_succ_comm. apply IH. destruct x; try lia. destruct (b0 =? b); lia.
Qed.

Definition sorted_by (f : nat -> nat) (q : list nat) : Prop := StronglySorted (fun b c => f b < f c) q.

Lemma sorted_sub f q b : sorted_by f q -> sorted_by f (remove Nat.eq_dec b q).
Proof.
  induction 1 as [|x q S1 IH F]; cbn; [constructor|].
  destruct (Nat.eq_dec b x); [assumption|]. constructor; [assumption|].
  rewrite Forall_forall in *. intros y Hy. apply remove_spec in Hy. apply F. tauto.
Qed.

Lemma sorted_ext f g q : (forall b, In b q -> f b = g b) -> sorted_by f q -> sorted_by g q.
Proof.
  induction q as [|x q IH]; intros E H; [constructor|]. inversion H as [|? ? S1 F]; subst. constructor.
  - apply IH; [intros; apply E; right; assumption|assumption].
  - rewrite Forall_forall in *. intros y Hy. rewrite <- !E; [auto|right; assumption|left; reflexivity].
Qed.

Lemma sorted_snoc f q b : sorted_by f q -> (forall c, In c q -> f c < f b) -> sorted_by f (q ++ [b]).
Proof.
  induction 1 as [|x q S1 IH F]; intros H; cbn; [constructor; constructor|].
  constructor; [apply IH; intros; apply H; right; assumption|].
  rewrite Forall_forall in *. intros y Hy. apply in_app_or in Hy. destruct Hy as [Hy|[<-|[]]]; [auto|].
  apply H. left; reflexivity.
Qed.

Lemma flush_lru n : forall s s1 q, flush pick n s = Ok s1 -> al s = Lru q -> al s1 = Lru [].
Proof.
  induction n as [|n IH]; intros s s1 q; cbn; intros E El; rewrite El in E; cbn in E; destruct q as [|c q]; try discriminate.
  - injection E as <-. assumption.
  - injection E as <-. assumption.
  - destruct (clean pick (set_al s (Lru q)) c) as [s2| |] eqn:Ec; cbn [bind] in E; try discriminate.
    destruct (detach pick s2 c) as [(s3, i)| |] eqn:Ed; cbn [bind] in E; try discriminate.
    destruct (clean_effect _ _ _ Ec) as (C1 & C2 & C3 & C4 & C5).
    destruct (detach_effect _ _ _ _ Ed) as (D1 & D2 & D3 & D4 & D5 & D6).
    eapply IH; [exact E|]. cbn. rewrite D5, C4. reflexivity.
Qed.

Lemma get_block_lru s s1 i q : get_block pick s = Ok (s1, i) -> al s = Lru q ->
  al s1 = Lru q \/ exists c r, q = c :: r /\ al s1 = Lru r.
Proof.
  unfold get_block. intros E El. destruct (get_free s) as [(s2, j)|] eqn:Eg.
  - injection E as <- <-. left. rewrite <- El. unfold get_free in Eg. destruct (free_i s).
    + destruct (0 <? remaining s); [|discriminate]. cbv zeta in Eg.
      revert Eg. generalize (Nat.min alloc_at_once (remaining s)). intros n Eg. injection Eg as <- <-. reflexivity.
    + injection Eg as <- <-. reflexivity.
  - rewrite El in E. cbn in E. destruct q as [|c q]; [discriminate|].
    destruct (detach_effect _ _ _ _ E) as (D1 & D2 & D3 & D4 & D5 & D6).
    right. exists c, q. rewrite D5. auto.
Qed.

(** The queue after an operation that does not switch. *)
Lemma lru_step s o s1 r q : do pick dflt s o = Ok (s1, r) -> al s = Lru q -> no_switch o = true ->
  exists q1, al s1 = Lru q1 /\
    (q1 = q \/ (exists c, q = c :: q1) \/ (exists b, q1 = remove Nat.eq_dec b q) \/ q1 = [] \/
     exists b d, o = Rel b d /\ q1 = lru_insert q b).
Proof.
  intros E El Hs. destruct o; cbn [do] in E; try discriminate.
  - destruct (acquire pick dflt s b un) as [(s2, i)| |] eqn:Ea; cbn [bind] in E; try discriminate.
    injection E as <- <-. unfold acquire in Ea. destruct (b <? nblk s); cbn [negb] in Ea; [|discriminate].
    rewrite El in Ea. destruct (int (blk s b)) as [j|].
    + injection Ea as <- <-. destruct (is_acquired (blk s b)); cbn; rewrite ?El; cbn; eauto 10.
    + destruct (get_block pick s) as [(s3, k)| |] eqn:Eg; cbn [bind] in Ea; try discriminate.
      assert (Q : al s2 = al s3).
      { destruct (sb_initialized (blk s3 b)); [destruct un; [|destruct (ext (blk s3 b)) as [e|]; [|discriminate]]|
          destruct dflt as [z|]; [destruct un|]]; injection Ea as <- <-; reflexivity. }
      rewrite Q. destruct (get_block_lru _ _ _ _ Eg El) as [G|(c & r0 & -> & G)]; rewrite G; eauto 10.
  - destruct (release pick s b d) as [s2| |] eqn:Er; cbn [bind] in E; try discriminate. injection E as <- <-.
    unfold release in Er. destruct (b <? nblk s); cbn [negb] in Er; [|discriminate]. rewrite El in Er.
    destruct (release_with_effect _ _ _ _ _ Er) as (_ & _ & _ & [A|A]); rewrite A, ?El; eauto 10.
  - destruct (deinitialize s b) as [s2| |] eqn:Er; cbn [bind] in E; try discriminate. injection E as <- <-.
    unfold deinitialize in Er. destruct (b <? nblk s); cbn [negb] in Er; [|discriminate]. rewrite El in Er.
    destruct (is_acquired (blk s b)); [discriminate|]. injection Er as <-.
    destruct (ext (blk s b)), (is_evictable (blk s b)), (int (blk s b)); cbn; rewrite ?El; cbn; eauto 10.
  - destruct (initialize s b e) as [s2| |] eqn:Er; cbn [bind] in E; try discriminate. injection E as <- <-.
    unfold initialize in Er. destruct (b <? nblk s); cbn [negb] in Er; [|discriminate]. rewrite El in Er.
    destruct (sb_initialized (blk s b)); [discriminate|]. injection Er as <-. cbn. eauto.
  - destruct (extract pick s b) as [(s2, x)| |] eqn:Er; cbn [bind] in E; try discriminate. injection E as <- <-.
    unfold extract in Er. destruct (b <? nblk s); cbn [negb] in Er; [|discriminate]. rewrite El in Er. cbv zeta in Er.
    assert (Q : exists q1, al (if is_evictable (blk s b) then set_al s (erase_evictable (Lru q) b) else s) = Lru q1 /\
       (q1 = q \/ exists b, q1 = remove Nat.eq_dec b q)).
    { destruct (is_evictable (blk s b)); cbn; rewrite ?El; eauto. }
    destruct Q as (q1 & Q1 & Q2).
    set (s0 := if is_evictable (blk s b) then set_al s (erase_evictable (Lru q) b) else s) in *. clearbody s0.
    destruct (is_internal (blk s b)).
    + destruct (detach pick _ b) as [(s3, i)| |] eqn:Ed; cbn [bind] in Er; try discriminate.
      injection Er as <- <-. destruct (detach_effect _ _ _ _ Ed) as (_ & _ & _ & _ & D & _).
      cbn [al set_b return_free set_free_i]. rewrite D, Q1. exists q1. intuition.
    + cbn [bind] in Er. injection Er as <- <-. cbn [al set_b return_free set_free_i]. rewrite Q1. exists q1. intuition.
  - destruct (is_initialized s b); cbn [bind] in E; try discriminate. injection E as <- <-. eauto.
  - unfold allocate in E. destruct (free_s s); injection E as <- <-; cbn; rewrite El; eauto.
  - unfold free_block in E. destruct (deinitialize s b) as [s2| |] eqn:Er; cbn [bind] in E; try discriminate.
    injection E as <- <-. cbn [al set_free_s].
    unfold deinitialize in Er. destruct (b <? nblk s); cbn [negb] in Er; [|discriminate]. rewrite El in Er.
    destruct (is_acquired (blk s b)); [discriminate|]. injection Er as <-.
    destruct (ext (blk s b)), (is_evictable (blk s b)), (int (blk s b)); cbn; rewrite ?El; cbn; eauto 10.
  - destruct (flush pick _ s) as [s2| |] eqn:Ef; cbn [bind] in E; try discriminate. injection E as <- <-.
    rewrite (flush_lru _ _ _ _ Ef El). eauto 10.
  - injection E as <- <-. rewrite El. rewrite El. eauto.
  - destruct (access s b); cbn [bind] in E; try discriminate. injection E as <- <-. cbn. eauto.
  - destruct (access s b); cbn [bind] in E; try discriminate. injection E as <- <-. cbn. eauto.
  - injection E as <- <-. cbn. eauto.
  - injection E as <- <-. cbn. eauto.
  - injection E as <- <-. cbn. eauto.
  - injection E as <- <-. cbn. eauto.
Qed.

(** A block in the queue is not released. *)
Lemma rel_acquired s b d s1 r : do pick dflt s (Rel b d) = Ok (s1, r) -> is_sim (al s) = false ->
  is_acquired (blk s b) = true.
Proof.
  cbn [do]. unfold release. destruct (b <? nblk s); cbn [negb bind]; [|discriminate].
  assert (Q : forall s ins, is_acquired (blk s b) = false -> release_with pick s b d ins = Undefined).
  { intros t ins K. unfold release_with. rewrite K. reflexivity. }
  intros E Es. destruct (is_acquired (blk s b)) eqn:Ea; [reflexivity|].
  destruct (al s) as [q|k m|q [|t nu]]; try discriminate; rewrite Q in E by assumption; discriminate.
Qed.

Lemma run_app ops1 : forall s ops2 s2 rs, run pick dflt s (ops1 ++ ops2) = Ok (s2, rs) ->
  exists s1 rs1 rs2, run pick dflt s ops1 = Ok (s1, rs1) /\ run pick dflt s1 ops2 = Ok (s2, rs2) /\ rs = rs1 ++ rs2.
Proof.
  induction ops1 as [|o ops1 IH]; intros s ops2 s2 rs E; cbn [app run] in *.
  - exists s, [], rs. auto.
  - destruct (do pick dflt s o) as [(s3, x)| |]; cbn [bind] in *; try discriminate.
    destruct (run pick dflt s3 (ops1 ++ ops2)) as [(s4, xs)| |] eqn:Er; cbn [bind] in E; try discriminate.
    injection E as <- <-. destruct (IH _ _ _ _ Er) as (s1 & rs1 & rs2 & I1 & I2 & ->).
    exists s1, (x :: rs1), rs2. rewrite I1. auto.
Qed.

Lemma run_length ops : forall s s1 rs, run pick dflt s ops = Ok (s1, rs) -> length rs = length ops.
Proof.
  induction ops as [|o ops IH]; intros s s1 rs E; cbn [run] in E.
  - injection E as <- <-. reflexivity.
  - destruct (do pick dflt s o) as [(s3, x)| |]; cbn [bind] in *; try discriminate.
    destruct (run pick dflt s3 ops) as [(s4, xs)| |] eqn:Er; cbn [bind] in E; try discriminate.
    injection E as <- <-. cbn. f_equal. eauto.
Qed.

Lemma combine_app {A B} (a1 a2 : list A) (b1 b2 : list B) : length a1 = length b1 ->
  combine (a1 ++ a2) (b1 ++ b2) = combine a1 b1 ++ combine a2 b2.
Proof.
  revert b1. induction a1 as [|x a1 IH]; intros [|y b1] H; cbn in *; try discriminate; [reflexivity|].
  f_equal. apply IH. lia.
Qed.

Lemma legal_run_app p t1 t2 : legal_run p (t1 ++ t2) <-> legal_run p t1 /\ legal_run (after_all p t1) t2.
Proof.
  revert p. induction t1 as [|(o, r) t1 IH]; intros p; cbn; [tauto|]. rewrite IH. tauto.
Qed.

Lemma after_all_app p t1 t2 : after_all p (t1 ++ t2) = after_all (after_all p t1) t2.
Proof. revert p. induction t1 as [|(o, r) t1 IH]; intros p; cbn; [reflexivity|]. apply IH. Qed.

Hypothesis Fresh : fresh_blocks pick.

Lemma lru_order max m d ops : forall s rs, forallb no_switch ops = true ->
  run pick dflt (start max m d) ops = Ok (s, rs) -> legal_run c0 (combine ops rs) ->
  exists q, al s = Lru q /\ sorted_by (last_release ops) q.
Proof.
  induction ops as [|o ops IH] using rev_ind; intros s rs Hs E L.
  - cbn in E. injection E as <- <-. exists []. split; [reflexivity|constructor].
  - rewrite forallb_app in Hs. apply andb_prop in Hs. destruct Hs as (Hs & Ho). cbn in Ho. rewrite andb_true_r in Ho.
    destruct (run_app _ _ _ _ _ E) as (s1 & rs1 & rs2 & E1 & E2 & ->).
    pose proof (run_length _ _ _ _ E1) as Ln. rewrite combine_app in L by (symmetry; exact Ln).
    apply legal_run_app in L. destruct L as (L1 & L2).
    destruct (IH _ _ Hs E1 L1) as (q & Q1 & Q2).
    destruct (run_R pick dflt Fresh _ _ _ _ _ _ (R_start max m d) E1 L1) as (HR & _).
    cbn [run] in E2. destruct (do pick dflt s1 o) as [(s3, x)| |] eqn:Ed; cbn [bind] in E2; try discriminate.
    injection E2 as <- <-. cbn in L2. destruct L2 as (Lo & _).
    destruct (lru_step _ _ _ _ _ Ed Q1 Ho) as (q1 & A & B). exists q1. split; [exact A|].
    unfold last_release in *.
    assert (Hacq : forall b d, o = Rel b d -> ~ In b q).
    { intros b d' ->. intros Hin.
      assert (K : In b (evictables (al s1))) by (rewrite Q1; exact Hin).
      apply (R_q _ _ _ _ _ HR) in K. destruct K as (_ & K & _).
      apply evictable_not_acquired in K.
      rewrite (rel_acquired _ _ _ _ _ Ed) in K; [discriminate|]. rewrite Q1. reflexivity. }
    assert (Eq : forall b, In b q -> last_release_from 0 ops b 0 = last_release_from 0 (ops ++ [o]) b 0).
    { intros b Hb. rewrite last_release_app. destruct o; try reflexivity.
      destruct (Nat.eqb_spec b0 b) as [->|]; [|reflexivity]. exfalso. eapply Hacq; eauto. }
    pose proof (sorted_ext _ _ _ Eq Q2) as Q3.
    destruct B as [->|[(c & ->)|[(b & ->)|[->|(b & d' & -> & ->)]]]].
    + exact Q3.
    + inversion Q3; assumption.
    + apply sorted_sub. exact Q3.
    + constructor.
    + unfold lru_insert. rewrite notin_remove by (eapply Hacq; reflexivity).
      apply sorted_snoc; [exact Q3|]. intros c Hc. rewrite <- Eq by exact Hc.
      rewrite last_release_app, Nat.eqb_refl. cbn [plus].
      pose proof (last_release_le 0 ops c 0 (le_n _)). lia.
Qed.

End Ops.
